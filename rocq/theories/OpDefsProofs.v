(** Proofs for [OpDefs.v]. *)
From Coq Require Import Permutation Sorted.
From Verif Require Import Prelude Strings Version GenName GenNameProofs GenType GenTypeProofs GenTypeFacts GenEmbedProofs GenTagProofs
  Uri UriProofs OpDefs.
Local Open Scope string_scope.
Local Open Scope list_scope.

(** *** Specification *)

Definition le (a b : string) : Prop := String.leb a b = true.
(** In the order of paths, and of methods for the same path. *)
Definition in_order (a b : string * string) : Prop := fst a <> fst b /\ le (fst a) (fst b) \/ fst a = fst b /\ le (snd a) (snd b).

Definition small (c : ascii) : ascii :=
  if (65 <=? N_of_ascii c)%N && (N_of_ascii c <=? 90)%N then ascii_of_N (N_of_ascii c + 32) else c.
Fixpoint in_small (s : string) : string := match s with EmptyString => "" | String c r => String (small c) (in_small r) end.

(** What an operation without identifier is called: its method and the elements of
    its path. *)
Definition called (u : unicode) (method path id : string) : Prop :=
  exists elements, Forall (free "/") elements /\ String.concat "/" elements = path /\ elements <> [] /\
    exists kept, those (fun e => e <> "") elements kept /\ id = toCamelCase u (String.concat "-" (in_small method :: kept)).

(** The identifier that bodies and responses are named after. *)
Definition identified (u : unicode) (method path given id : string) : Prop :=
  exists base, id = (typeNamePrefix u base ++ base)%string /\
    (given <> "" /\ base = toCamelCase u given \/ given = "" /\ method <> "" /\ path <> "" /\ called u method path base).

(** Requirements one after the other, each in the order of its schemes. *)
Definition listed (rs : list requirement) (out : list (string * list string)) : Prop :=
  exists ls, Forall2 (fun r l => Permutation r l /\ StronglySorted le (map fst l)) rs ls /\ out = concat ls.

Section Spec.
Context {P A D B R : Type}.
Variable u : unicode.
Variable describe : list string -> P -> outcome (param_def D).
Variable bodies : string -> A -> outcome B.
Variable responses : string -> A -> outcome R.

Record defined_as (doc : document P A) (item : path_item P A) (op : operation P A) (id : string) (d : op_def D B R) : Prop := {
  da_id : identified u (d_method d) (d_path d) (o_id op) id;
  da_name : d_id d = toCamelCase u id;
  da_params : exists g l k, Forall2 (fun p x => describe [] p = Ok x) (pi_params item) g /\
    Forall2 (fun p x => describe [(id ++ "Params")%string] p = Ok x) (o_params op) l /\
    those (fun p => pin p = "path") (g ++ l) k /\ sortParamsByPath (d_path d) k = Ok (d_path_params d) /\
    those (fun p => pin p = "header") (g ++ l) (d_header d) /\ those (fun p => pin p = "query") (g ++ l) (d_query d) /\
    those (fun p => pin p = "cookie") (g ++ l) (d_cookie d);
  da_security : listed (match o_security op with Some own => own | None => do_security doc end) (d_security d);
  da_required : d_required d = true <-> o_body op = Some true;
  da_bodies : bodies id (o_rest op) = Ok (d_bodies d);
  da_responses : responses id (o_rest op) = Ok (d_responses d) }.
End Spec.

(** *** Proofs *)

Lemma leb_le a : forall b, str_leb a b = String.leb a b.
Proof.
  induction a as [|c a IH]; intros [|d b]; try reflexivity. cbn [str_leb]. unfold String.leb in *. cbn [String.compare].
  destruct (Ascii.eqb_spec c d) as [->|N].
  - unfold Ascii.compare. rewrite N.compare_refl. apply IH.
  - unfold Ascii.compare. destruct (N.compare_spec (N_of_ascii c) (N_of_ascii d)) as [E|L|L].
    + exfalso. apply N. rewrite <- (ascii_N_embedding c), <- (ascii_N_embedding d), E. reflexivity.
    + apply N.leb_le. lia.
    + apply N.leb_gt. exact L.
Qed.
Lemma sorted_le l : sorted l -> StronglySorted le l.
Proof.
  induction 1 as [|a l H _ IH]; constructor; [exact IH|]. apply Forall_forall. intros b I. unfold le. rewrite <- leb_le. apply H, I.
Qed.
Lemma keys_le {A} (l : list (string * A)) : StronglySorted le (map fst (by_key l)).
Proof. apply sorted_le, by_key_sorted. Qed.

Lemma lower_small s : toLower s = in_small s.
Proof. induction s as [|c s IH]; [reflexivity|]. cbn. rewrite IH. reflexivity. Qed.

Lemma filter_those {A} (f : A -> bool) (P : A -> Prop) l : (forall x, f x = true <-> P x) -> those P l (filter f l).
Proof.
  intros H. induction l as [|x l IH]; cbn [filter]; [constructor|]. destruct (f x) eqn:E; constructor; try exact IH; rewrite <- H; congruence.
Qed.
Lemma by_type {D} (l : list (param_def D)) w : those (fun p => pin p = w) l (filterByType l w).
Proof. apply filter_those. intros p. apply String.eqb_eq. Qed.

Lemma fold_parts l : forall s,
  fold_left (fun id part => if String.eqb part "" then id else (id ++ "-" ++ part)%string) l s
  = String.concat "-" (s :: filter (fun p => negb (String.eqb p "")) l).
Proof.
  induction l as [|p l IH]; intros s; [reflexivity|]. cbn [fold_left filter]. destruct (String.eqb p "") eqn:E; cbn [negb]; [apply IH|].
  rewrite IH. cbn [String.concat]. destruct (filter _ l); [reflexivity|]. rewrite !str_app_assoc. reflexivity.
Qed.

Lemma default_called u m p id : generateDefaultOperationID u m p = Ok id <-> m <> "" /\ p <> "" /\ called u m p id.
Proof.
  unfold generateDefaultOperationID. destruct (String.eqb_spec m "") as [->|M]; [split; [discriminate|intros [N _]; contradiction]|].
  destruct (String.eqb_spec p "") as [->|Q]; [split; [discriminate|intros [_ [N _]]; contradiction]|].
  rewrite fold_parts, lower_small.
  destruct (split_parts "/" p) as [F C]. change (String "/" "") with "/" in F, C. split.
  - intros E. injection E as <-. split; [exact M|]. split; [exact Q|]. exists (split_str p "/"). split; [exact F|]. split; [exact C|].
    split; [apply (split_some "/")|]. eexists. split; [|reflexivity]. apply filter_those. intros x. destruct (String.eqb_spec x ""); cbn; split; congruence.
  - intros (_ & _ & l & F' & C' & N & k & T & ->). do 2 f_equal. rewrite <- C'.
    assert (E := split_joined "/" l N F'). change (String "/" "") with "/" in E. rewrite E.
    f_equal. f_equal. clear - T. induction T as [|x l k H T IH|x l k H T IH]; cbn [filter]; [reflexivity| |].
    + destruct (String.eqb_spec x ""); [contradiction|]. cbn [negb]. rewrite IH. reflexivity.
    + destruct (String.eqb_spec x ""); [exact IH|contradiction].
Qed.

Lemma id_identified u m p g id : operation_id u m p g = Ok id <-> identified u m p g id.
Proof.
  unfold operation_id, identified. destruct (String.eqb_spec g "") as [->|N].
  - destruct (generateDefaultOperationID u m p) as [b|e| |] eqn:E; cbn [telling bind].
    + apply default_called in E. split.
      * intros X. injection X as <-. exists b. split; [reflexivity|]. right. split; [reflexivity|exact E].
      * intros (b' & -> & [[Z _]|[_ C]]); [contradiction|]. apply default_called in E. apply default_called in C. rewrite E in C. injection C as ->. reflexivity.
    + split; [discriminate|]. intros (b & _ & [[Z _]|[_ C]]); [contradiction|]. apply default_called in C. congruence.
    + split; [discriminate|]. intros (b & _ & [[Z _]|[_ C]]); [contradiction|]. apply default_called in C. congruence.
    + split; [discriminate|]. intros (b & _ & [[Z _]|[_ C]]); [contradiction|]. apply default_called in C. congruence.
  - cbn [bind]. split.
    + intros X. injection X as <-. eexists. split; [reflexivity|]. left. split; [exact N|reflexivity].
    + intros (b & -> & [[_ ->]|[Z _]]); [reflexivity|contradiction].
Qed.

Lemma security_listed rs : listed rs (describeSecurityDefinition rs).
Proof.
  exists (map by_key rs). split; [|unfold describeSecurityDefinition; apply flat_map_concat_map].
  induction rs as [|r rs IH]; cbn [map]; constructor; [|exact IH]. split; [symmetry; apply by_key_perm|apply keys_le].
Qed.

Lemma telling_ok {T} t (o : outcome T) x : telling t o = Ok x <-> o = Ok x.
Proof. destruct o; cbn; split; congruence. Qed.
Lemma wrapping_ok {T} t (o : outcome T) x : wrapping t o = Ok x <-> o = Ok x.
Proof. destruct o; cbn; split; congruence. Qed.
Lemma bind_ok {S0 T} (o : outcome S0) (f : S0 -> outcome T) y : bind o f = Ok y <-> exists x, o = Ok x /\ f x = Ok y.
Proof. destruct o as [x|e| |]; cbn; split; try (intros (x' & E & _); discriminate); try discriminate; [eauto|intros (x' & E & H); congruence]. Qed.

Lemma params_each {P D} (describe : list string -> P -> outcome (param_def D)) path ps : forall l,
  describeParameters describe path ps = Ok l <-> Forall2 (fun p x => describe path p = Ok x) ps l.
Proof.
  induction ps as [|p ps IH]; intros l; cbn [describeParameters].
  - split; [intros E; injection E as <-; constructor|intros F; inversion F; reflexivity].
  - rewrite bind_ok. split.
    + intros (x & E & H). apply bind_ok in H as (xs & E2 & E3). injection E3 as <-. constructor; [exact E|]. apply IH, E2.
    + intros F. inversion F as [|? x ? xs E F2]; subst. exists x. split; [exact E|]. apply bind_ok. exists xs. split; [apply IH, F2|reflexivity].
Qed.

Section Proofs.
Context {P A D B R : Type}.
Variable u : unicode.
Variable describe : list string -> P -> outcome (param_def D).
Variable bodies : string -> A -> outcome B.
Variable responses : string -> A -> outcome R.
Notation define_op := (define_op u describe bodies responses).
Notation define_ops := (define_ops u describe bodies responses).
Notation define_paths := (define_paths u describe bodies responses).
Notation defined_as := (defined_as u describe bodies responses).

Lemma op_defined doc item g m p op d : describeParameters describe [] (pi_params item) = Ok g ->
  define_op (do_security doc) p g m op = Ok d -> d_path d = p /\ d_method d = m /\ exists id, defined_as doc item op id d.
Proof.
  intros G H. apply bind_ok in H as (id & I & H). apply bind_ok in H as (l & L & H). apply bind_ok in H as (k & K & H).
  apply bind_ok in H as (bs & HB & H). apply bind_ok in H as (rs & HR & H). injection H as <-. cbn [d_path d_method].
  apply telling_ok in L. apply wrapping_ok in HB, HR. split; [reflexivity|]. split; [reflexivity|]. exists id.
  constructor; cbn [d_path d_method d_id d_path_params d_header d_query d_cookie d_security d_required d_bodies d_responses].
  - apply id_identified, I.
  - reflexivity.
  - exists g, l. eexists. split; [apply params_each, G|]. split; [apply params_each, L|]. split; [apply by_type|]. split; [exact K|].
    repeat split; apply by_type.
  - apply security_listed.
  - destruct (o_body op) as [[]|]; split; congruence.
  - exact HB.
  - exact HR.
Qed.

Definition place_of (d : op_def D B R) : string * string := (d_path d, d_method d).

Lemma ops_defined doc item g p l : describeParameters describe [] (pi_params item) = Ok g -> forall out,
  define_ops (do_security doc) p g l = Ok out ->
  Forall2 (fun e d => d_path d = p /\ d_method d = fst e /\ exists id, defined_as doc item (snd e) id d) l out.
Proof.
  intros G. induction l as [|[m op] l IH]; intros out H; cbn [OpDefs.define_ops] in H.
  - injection H as <-. constructor.
  - apply bind_ok in H as (d & E & H). apply bind_ok in H as (ds & E2 & H). injection H as <-. constructor; [|apply IH, E2].
    cbn [fst snd]. exact (op_defined doc item g m p op d G E).
Qed.

Definition places (ps : list (string * path_item P A)) : list (string * string) :=
  flat_map (fun e => map (fun o => (fst e, fst o)) (pi_ops (snd e))) ps.

Lemma sorted_app {T} (Q : T -> T -> Prop) a b : StronglySorted Q a -> StronglySorted Q b -> (forall x y, In x a -> In y b -> Q x y) -> StronglySorted Q (a ++ b).
Proof.
  induction 1 as [|x a SA IH F]; intros SB H; [exact SB|]. cbn [app]. constructor.
  - apply IH; [exact SB|]. intros y z I J. apply H; [right; exact I|exact J].
  - apply Forall_app. split; [exact F|]. apply Forall_forall. intros y J. apply H; [left; reflexivity|exact J].
Qed.

Lemma paths_defined doc ps : forall out, define_paths (do_security doc) ps = Ok out -> NoDup (map fst ps) -> StronglySorted le (map fst ps) ->
  Permutation (map place_of out) (places ps) /\ StronglySorted in_order (map place_of out) /\
  (forall d, In d out -> exists item op id, In (d_path d, item) ps /\ In (d_method d, op) (pi_ops item) /\ defined_as doc item op id d).
Proof.
  induction ps as [|[p item] ps IH]; intros out H N O; cbn [OpDefs.define_paths] in H.
  - injection H as <-. split; [constructor|]. split; [constructor|]. intros d [].
  - apply bind_ok in H as (g & G & H). apply telling_ok in G. apply bind_ok in H as (ds & E & H). apply bind_ok in H as (rest & E2 & H). injection H as <-.
    inversion N as [|? ? N1 N2]; subst. inversion O as [|? ? O1 O2]; subst. destruct (IH rest E2 N2 O1) as (I1 & I2 & I3).
    apply (ops_defined doc item g p _ G) in E.
    assert (X : map place_of ds = map (fun o => (p, fst o)) (by_key (pi_ops item))).
    { clear - E. induction E as [|e d l k (E1 & E2 & _) F IHF]; [reflexivity|]. cbn [map]. unfold place_of at 1. rewrite E1, E2, IHF. reflexivity. }
    split; [|split].
    + rewrite map_app, X. cbn [places flat_map fst snd]. apply Permutation_app; [|exact I1]. apply Permutation_map, by_key_perm.
    + rewrite map_app, X. apply sorted_app.
      * assert (K := keys_le (pi_ops item)). clear - K. induction (by_key (pi_ops item)) as [|o os IHo]; [constructor|]. cbn [map] in *. inversion K as [|? ? K1 K2]; subst.
        constructor; [apply IHo, K1|]. apply Forall_forall. intros y J. apply in_map_iff in J as (q & <- & J). right. split; [reflexivity|].
        rewrite Forall_forall in K2. cbn [snd]. apply K2. apply List.in_map. exact J.
      * exact I2.
      * intros x y J1 J2. apply in_map_iff in J1 as (o & <- & _). apply in_map_iff in J2 as (d & <- & J2). left.
        destruct (I3 d J2) as (item' & _ & _ & J3 & _). cbn [fst place_of]. apply (List.in_map fst) in J3. cbn [fst] in J3. split; [intros ->; contradiction|].
        rewrite Forall_forall in O2. apply O2, J3.
    + intros d J. apply in_app_or in J as [J|J].
      * assert (Y : exists o, In o (by_key (pi_ops item)) /\ d_path d = p /\ d_method d = fst o /\ exists id, defined_as doc item (snd o) id d).
        { clear - E J. induction E as [|e d' l k Q F IHF]; [destruct J|]. destruct J as [<-|J]; [exists e; split; [left; reflexivity|exact Q]|].
          destruct (IHF J) as (o & I & Z). exists o. split; [right; exact I|exact Z]. }
        destruct Y as ([m op] & J1 & -> & -> & id & Q). exists item, op, id. split; [left; reflexivity|]. split; [|exact Q]. apply by_key_in, J1.
      * destruct (I3 d J) as (item' & op & id & J1 & J2 & Q). exists item', op, id. split; [right; exact J1|]. split; assumption.
Qed.

Lemma doc_defined doc out : operationDefinitions u describe bodies responses doc = Ok out -> NoDup (map fst (do_paths doc)) ->
  Permutation (map place_of out) (places (do_paths doc)) /\ StronglySorted in_order (map place_of out) /\
  (forall d, In d out -> exists item op id, In (d_path d, item) (do_paths doc) /\ In (d_method d, op) (pi_ops item) /\ defined_as doc item op id d).
Proof.
  intros H N. destruct (paths_defined doc (by_key (do_paths doc)) out H (by_key_nodup _ N) (keys_le _)) as (H1 & H2 & H3). split; [|split].
  - etransitivity; [exact H1|]. unfold places. apply Permutation_flat_map, by_key_perm.
  - exact H2.
  - intros d I. destruct (H3 d I) as (item & op & id & J & K). exists item, op, id. split; [apply by_key_in, J|exact K].
Qed.
End Proofs.

(** *** Names *)

Lemma alnum_all_ascii s : all alnum s = true -> all is_ascii s = true.
Proof. intros H. apply (all_impl alnum); [apply alnum_ascii|exact H]. Qed.
Lemma camel_all u s : all is_ascii s = true -> all alnum (toCamelCase u s) = true.
Proof. intros H. rewrite (toCamel_ascii u s H). apply camel_alnum. Qed.

(** Whatever the base is made of letters and digits, the name is exported. *)
Lemma base_word u b : all alnum b = true -> word (toCamelCase u (typeNamePrefix u b ++ b)).
Proof.
  intros H. assert (K : forall c r, letterc c = true -> all alnum r = true -> word (toCamelCase u (String c r))).
  { intros c r L Q. rewrite camel_name by assumption. exists (upc c), r. split; [reflexivity|]. split; [apply upc_letter, L|exact Q]. }
  destruct (prefix_ok u b) as [E|W].
  - rewrite E. cbn [append]. destruct b as [|c r]; [discriminate E|]. cbn [all] in H. apply andb_true_iff in H as [H1 H2].
    destruct (digitc c) eqn:X.
    + rewrite (digit_prefix u c r X) in E; [discriminate E|]. apply alnum_all_ascii. cbn. rewrite H1. exact H2.
    + apply K; [|exact H2]. unfold alnum in H1. rewrite X, orb_false_r in H1. exact H1.
  - destruct (word_app _ b W H) as (c & t & E & H1 & H2). rewrite E. apply K; [|exact H2]. unfold letterc. rewrite H1. reflexivity.
Qed.

Lemma concat_all P s l : all P s = true -> (forall x, In x l -> all P x = true) -> all P (String.concat s l) = true.
Proof.
  intros H. induction l as [|x l IH]; intros F; [reflexivity|]. cbn [String.concat]. destruct l as [|y l]; [apply F; left; reflexivity|].
  rewrite !all_app, H, (F x (or_introl eq_refl)). cbn [andb]. apply IH. intros z I. apply F. right. exact I.
Qed.
Lemma concat_parts P s l : all P (String.concat s l) = true -> forall x, In x l -> all P x = true.
Proof.
  induction l as [|x l IH]; intros H y I; [destruct I|]. cbn [String.concat] in H. destruct l as [|z l].
  - destruct I as [<-|[]]. exact H.
  - rewrite !all_app in H. apply andb_true_iff in H as [H1 H2]. apply andb_true_iff in H2 as [_ H2]. destruct I as [<-|I]; [exact H1|exact (IH H2 y I)].
Qed.
Lemma small_ascii m : all is_ascii m = true -> all is_ascii (in_small m) = true.
Proof.
  induction m as [|c m IH]; intros H; [reflexivity|]. cbn [all in_small] in *. apply andb_true_iff in H as [H1 H2]. rewrite (IH H2), andb_true_r.
  unfold small. destruct ((65 <=? N_of_ascii c)%N && (N_of_ascii c <=? 90)%N) eqn:E; [|exact H1]. apply andb_true_iff in E as [_ E].
  apply N.leb_le in E. unfold is_ascii. rewrite N_ascii_embedding by lia. apply N.ltb_lt. lia.
Qed.
Lemma those_in_list {T} (Q : T -> Prop) l k x : those Q l k -> In x k -> In x l.
Proof. induction 1 as [|y l k H T0 IH|y l k H T0 IH]; intros I; [destruct I| |right; exact (IH I)]. destruct I as [<-|I]; [left; reflexivity|right; exact (IH I)]. Qed.

Lemma identified_word u m p g id : all is_ascii m = true -> all is_ascii p = true -> all is_ascii g = true -> identified u m p g id ->
  word (toCamelCase u id).
Proof.
  intros M Q G (b & -> & [[_ ->]|(_ & _ & _ & l & F & C & N & k & T & ->)]); apply base_word, camel_all; [exact G|].
  apply concat_all; [reflexivity|]. intros x [<-|I]; [apply small_ascii, M|]. apply (concat_parts is_ascii "/" l); [rewrite C; exact Q|].
  exact (those_in_list _ _ _ _ T I).
Qed.

(** An identifier that is an exported name already stays. *)
Lemma identified_kept u m p g : word g -> forall id, identified u m p g id -> toCamelCase u id = g.
Proof.
  intros (c & r & -> & H1 & H2) id (b & -> & [[_ ->]|[X _]]); [|discriminate X].
  assert (L : letterc c = true) by (unfold letterc; rewrite H1; reflexivity).
  assert (U : upc c = c).
  { unfold upc. destruct (lowerc c) eqn:E; [|reflexivity]. unfold upperc, lowerc, a_upper, a_lower in *. apply within_iff in H1, E. lia. }
  assert (CN : toCamelCase u (String c r) = String c r) by (rewrite camel_name, U by assumption; reflexivity).
  rewrite CN. pose proof (type_name_plain u c r L H2) as T. unfold schemaNameToTypeName in T. rewrite CN, U in T. rewrite T. exact CN.
Qed.

(** *** When there are no definitions *)
Section Errors.
Context {P A D B R : Type}.
Variable u : unicode.
Variable describe : list string -> P -> outcome (param_def D).
Variable bodies : string -> A -> outcome B.
Variable responses : string -> A -> outcome R.

(** Why an operation has no definition. *)
Inductive op_error (p : string) (g : list (param_def D)) (m : string) (op : operation P A) : err -> Prop :=
| oe_name t : o_id op = "" -> (m = "" /\ t = "operation name cannot be an empty string" \/ m <> "" /\ p = "" /\ t = "request path cannot be an empty string") ->
    op_error p g m op (mkErr [] ("error generating default OperationID for " ++ m ++ "/" ++ p ++ ": " ++ t))
| oe_param id e : identified u m p (o_id op) id -> describeParameters describe [(id ++ "Params")%string] (o_params op) = Err e ->
    op_error p g m op (mkErr [] ("error describing global parameters for " ++ m ++ "/" ++ p ++ ": " ++ e_text e))
| oe_path id l k e : identified u m p (o_id op) id -> Forall2 (fun q x => describe [(id ++ "Params")%string] q = Ok x) (o_params op) l ->
    those (fun q => pin q = "path") (g ++ l) k -> sortParamsByPath p k = Err e -> op_error p g m op e
| oe_body id e : identified u m p (o_id op) id -> bodies id (o_rest op) = Err e ->
    op_error p g m op (mkErr (e_marks e) ("error generating body definitions: " ++ e_text e))
| oe_response id e : identified u m p (o_id op) id -> responses id (o_rest op) = Err e ->
    op_error p g m op (mkErr (e_marks e) ("error generating response definitions: " ++ e_text e)).

(** Why a document has no definitions. *)
Inductive doc_error (doc : document P A) : err -> Prop :=
| de_global p item e : In (p, item) (do_paths doc) -> describeParameters describe [] (pi_params item) = Err e ->
    doc_error doc (mkErr [] ("error describing global parameters for " ++ p ++ ": " ++ e_text e))
| de_op p item g m op e : In (p, item) (do_paths doc) -> In (m, op) (pi_ops item) ->
    Forall2 (fun q x => describe [] q = Ok x) (pi_params item) g -> op_error p g m op e -> doc_error doc e.

Lemma bind_err {S0 T} (o : outcome S0) (f : S0 -> outcome T) e : bind o f = Err e <-> o = Err e \/ exists x, o = Ok x /\ f x = Err e.
Proof.
  destruct o as [x|e'| |]; cbn; split; intros H.
  - right. exists x. split; [reflexivity|exact H].
  - destruct H as [H|(y & E & H)]; [discriminate H|]. injection E as <-. exact H.
  - left. congruence.
  - destruct H as [H|(y & E & _)]; [congruence|discriminate E].
  - discriminate H.
  - destruct H as [H|(y & E & _)]; discriminate.
  - discriminate H.
  - destruct H as [H|(y & E & _)]; discriminate.
Qed.
Lemma telling_err {T} t (o : outcome T) e : telling t o = Err e <-> exists e', o = Err e' /\ e = mkErr [] (t ++ e_text e')%string.
Proof. destruct o as [x|e'| |]; cbn; split; try (intros (x' & E & _); discriminate); try discriminate; [intros E; injection E as <-; eauto|intros (y & E & ->); congruence]. Qed.
Lemma wrapping_err {T} t (o : outcome T) e : wrapping t o = Err e <-> exists e', o = Err e' /\ e = mkErr (e_marks e') (t ++ e_text e')%string.
Proof. destruct o as [x|e'| |]; cbn; split; try (intros (x' & E & _); discriminate); try discriminate; [intros E; injection E as <-; eauto|intros (y & E & ->); congruence]. Qed.

Lemma op_fails sec p g m op e : define_op u describe bodies responses sec p g m op = Err e -> op_error p g m op e.
Proof.
  intros H. apply bind_err in H as [H|(id & I & H)].
  - unfold operation_id in H. apply bind_err in H as [H|(b & _ & H)]; [|discriminate H]. destruct (String.eqb_spec (o_id op) "") as [Z|Z]; [|discriminate H].
    apply telling_err in H as (e' & H & ->). unfold generateDefaultOperationID in H. rewrite !str_app_assoc. destruct (String.eqb_spec m "") as [->|M].
    + injection H as <-. cbn [e_text]. apply oe_name; [exact Z|]. left. split; reflexivity.
    + destruct (String.eqb_spec p "") as [->|Q]; [|discriminate H]. injection H as <-. cbn [e_text]. apply oe_name; [exact Z|]. right. repeat split. exact M.
  - apply id_identified in I. apply bind_err in H as [H|(l & L & H)].
    + apply telling_err in H as (e' & H & ->). rewrite !str_app_assoc. eapply oe_param; eassumption.
    + apply telling_ok, params_each in L. apply bind_err in H as [H|(k & K & H)]; [eapply oe_path; [exact I|exact L|apply by_type|exact H]|].
      apply bind_err in H as [H|(b & _ & H)]; [apply wrapping_err in H as (e' & H & ->); eapply oe_body; eassumption|].
      apply bind_err in H as [H|(r & _ & H)]; [apply wrapping_err in H as (e' & H & ->); eapply oe_response; eassumption|]. discriminate H.
Qed.

Lemma doc_fails doc e : operationDefinitions u describe bodies responses doc = Err e -> doc_error doc e.
Proof.
  unfold operationDefinitions. assert (Incl : incl (by_key (do_paths doc)) (do_paths doc)) by (intros x; apply by_key_in).
  revert Incl. generalize (by_key (do_paths doc)). intros ps. induction ps as [|[p item] ps IH]; intros Incl H; [discriminate H|]. cbn [define_paths] in H.
  assert (I : In (p, item) (do_paths doc)) by (apply Incl; left; reflexivity).
  apply bind_err in H as [H|(g & G & H)].
  - apply telling_err in H as (e' & H & ->). rewrite !str_app_assoc. eapply de_global; eassumption.
  - apply telling_ok, params_each in G. apply bind_err in H as [H|(ds & _ & H)].
    + assert (J : incl (by_key (pi_ops item)) (pi_ops item)) by (intros x; apply by_key_in). revert J H. generalize (by_key (pi_ops item)). intros os.
      induction os as [|[m op] os IHo]; intros J H; [discriminate H|]. cbn [define_ops] in H. apply bind_err in H as [H|(d & _ & H)].
      * eapply de_op; [exact I|apply J; left; reflexivity|exact G|exact (op_fails _ _ _ _ _ _ H)].
      * apply bind_err in H as [H|(x & _ & H)]; [|discriminate H]. apply IHo; [intros x X; apply J; right; exact X|exact H].
    + apply bind_err in H as [H|(x & _ & H)]; [|discriminate H]. apply IH; [intros x X; apply Incl; right; exact X|exact H].
Qed.

(** There are definitions if nothing panics and every operation has one. *)
Lemma doc_total doc :
  (forall p item, In (p, item) (do_paths doc) -> exists g, Forall2 (fun q x => describe [] q = Ok x) (pi_params item) g /\
    forall m op, In (m, op) (pi_ops item) -> exists d, define_op u describe bodies responses (do_security doc) p g m op = Ok d) ->
  exists out, operationDefinitions u describe bodies responses doc = Ok out.
Proof.
  intros H. unfold operationDefinitions. assert (Incl : incl (by_key (do_paths doc)) (do_paths doc)) by (intros x; apply by_key_in).
  revert Incl. generalize (by_key (do_paths doc)). intros ps. induction ps as [|[p item] ps IH]; intros Incl; [eexists; reflexivity|]. cbn [define_paths].
  destruct (H p item) as (g & G & X); [apply Incl; left; reflexivity|]. apply params_each in G. rewrite G. cbn [telling bind].
  assert (Y : exists ds, define_ops u describe bodies responses (do_security doc) p g (by_key (pi_ops item)) = Ok ds).
  { assert (J : incl (by_key (pi_ops item)) (pi_ops item)) by (intros x; apply by_key_in). revert J. generalize (by_key (pi_ops item)). intros os.
    induction os as [|[m op] os IHo]; intros J; [eexists; reflexivity|]. cbn [define_ops]. destruct (X m op) as (d & ->); [apply J; left; reflexivity|].
    destruct IHo as (ds & ->); [intros x Z; apply J; right; exact Z|]. eexists. reflexivity. }
  destruct Y as (ds & ->). destruct IH as (out & ->); [intros x Z; apply Incl; right; exact Z|]. eexists. reflexivity.
Qed.
End Errors.
