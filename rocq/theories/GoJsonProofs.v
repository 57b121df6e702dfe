(** Proofs about GoJson.v: which data generated types keep. *)
From Verif Require Import Prelude Strings Version Util UtilProofs GenName GenNameProofs GenSpellProofs
  GenCommentProofs GenType GenTypeSpec GenTypeProofs GenDeclProofs GenTypeFacts GoJson GoJsonSpec.
Require Import ZArith.
Local Open Scope string_scope.
Local Open Scope list_scope.

(** *** Order *)

Lemma leb_antisym a : forall b, str_leb a b = true -> str_leb b a = true -> a = b.
Proof.
  induction a as [|c r IH]; intros [|d t] H1 H2; cbn in *; try reflexivity; try discriminate.
  rewrite (Ascii.eqb_sym d c) in H2. destruct (Ascii.eqb_spec c d) as [->|N]; [f_equal; apply IH; assumption|].
  exfalso. apply N.leb_le in H1, H2. apply N.  assert (E : N_of_ascii c = N_of_ascii d) by lia.
  rewrite <- (ascii_N_embedding c), <- (ascii_N_embedding d), E. reflexivity.
Qed.

Lemma before_irrefl a : ~ before a a.
Proof. intros [_ H]. apply H. reflexivity. Qed.
Lemma before_asym a b : before a b -> before b a -> False.
Proof. intros [H N] [H' _]. apply N, leb_antisym; assumption. Qed.

Lemma increasing_nodup l : increasing l -> NoDup l.
Proof.
  induction l as [|a r IH]; intros H; [constructor|]. destruct H as [H1 H2]. constructor; [|apply IH, H2].
  intros I. apply (before_irrefl a). apply H1, I.
Qed.

Lemma increasing_ext {A} (l : list (string * A)) : forall l', increasing (map fst l) -> increasing (map fst l') ->
  (forall x, In x l <-> In x l') -> l = l'.
Proof.
  induction l as [|x l IH]; intros [|y l'] H H' E.
  - reflexivity.
  - destruct (proj2 (E y) (or_introl eq_refl)).
  - destruct (proj1 (E x) (or_introl eq_refl)).
  - cbn [map increasing] in H, H'. destruct H as [H1 H2], H' as [H1' H2'].
    assert (XY : x = y).
    { destruct (proj1 (E x) (or_introl eq_refl)) as [Q|Q]; [congruence|].
      destruct (proj2 (E y) (or_introl eq_refl)) as [Q'|Q']; [congruence|].
      exfalso. apply (before_asym (fst x) (fst y)); [apply H1|apply H1']; apply in_map; assumption. }
    subst y. f_equal. apply IH; [assumption..|]. intros z. split; intros I.
    + destruct (proj1 (E z) (or_intror I)) as [<-|Q]; [|exact Q].
      exfalso. apply (before_irrefl (fst x)), H1, in_map, I.
    + destruct (proj2 (E z) (or_intror I)) as [<-|Q]; [|exact Q].
      exfalso. apply (before_irrefl (fst x)), H1', in_map, I.
Qed.

Lemma insert_head {A} (x : string * A) l : (forall b, In b (map fst l) -> before (fst x) b) -> insert x l = x :: l.
Proof.
  destruct l as [|y r]; intros H; [reflexivity|]. cbn [insert]. rewrite (proj1 (H (fst y) (or_introl eq_refl))). reflexivity.
Qed.
Lemma by_key_id {A} (l : list (string * A)) : increasing (map fst l) -> by_key l = l.
Proof.
  induction l as [|x l IH]; intros H; [reflexivity|]. cbn [map increasing] in H. destruct H as [H1 H2].
  change (by_key (x :: l)) with (insert x (by_key l)). rewrite IH by exact H2. apply insert_head, H1.
Qed.

Lemma increasing_insert {A} (x : string * A) l : ~ In (fst x) (map fst l) -> increasing (map fst l) ->
  increasing (map fst (insert x l)).
Proof.
  induction l as [|y l IH]; intros N H; [cbn; split; [intros b []|exact I]|].
  cbn [insert]. cbn [map increasing] in H. destruct H as [H1 H2]. destruct (str_leb (fst x) (fst y)) eqn:E.
  - cbn [map increasing]. split; [|split; assumption]. intros b [<-|I].
    + split; [exact E|]. intros Q. apply N. left. symmetry. exact Q.
    + split; [apply (leb_trans _ (fst y)); [exact E|apply H1, I]|]. intros Q. apply N. right. rewrite Q. exact I.
  - cbn [map increasing]. split; [|apply IH; [intros Q; apply N; right; exact Q|exact H2]].
    intros b I. apply in_map_iff in I. destruct I as [z [<- I]]. apply insert_in in I. destruct I as [->|I].
    + split; [apply leb_total, E|]. intros Q. apply N. left. exact Q.
    + apply H1, in_map, I.
Qed.
Lemma by_key_increasing {A} (l : list (string * A)) : NoDup (map fst l) -> increasing (map fst (by_key l)).
Proof.
  induction l as [|x l IH]; intros N; [exact I|]. inversion N as [|? ? N1 N2]; subst.
  change (by_key (x :: l)) with (insert x (by_key l)). apply increasing_insert; [|apply IH, N2].
  intros Q. apply N1. apply in_map_iff in Q. destruct Q as [z [<- Q]]. rewrite by_key_in in Q. apply in_map, Q.
Qed.

(** *** Association lists *)

Lemma lookup_put {A} k (v : A) l k' : lookup k' (put k v l) = if String.eqb k' k then Some v else lookup k' l.
Proof.
  induction l as [|[q w] l IH]; cbn [put lookup].
  - destruct (String.eqb k' k); reflexivity.
  - destruct (String.eqb_spec k q) as [<-|N]; cbn [lookup].
    + destruct (String.eqb k' k); reflexivity.
    + rewrite IH. destruct (String.eqb_spec k' q) as [->|M]; [|reflexivity].
      destruct (String.eqb_spec q k); [congruence|reflexivity].
Qed.

Lemma put_new {A} k (v : A) l : ~ In k (map fst l) -> put k v l = l ++ [(k, v)].
Proof.
  induction l as [|[q w] l IH]; intros H; [reflexivity|]. cbn [put]. destruct (String.eqb_spec k q) as [->|N].
  - exfalso. apply H. left. reflexivity.
  - cbn [app]. f_equal. apply IH. intros Q. apply H. right. exact Q.
Qed.

Lemma lookup_in {A} k (v : A) l : NoDup (map fst l) -> In (k, v) l -> lookup k l = Some v.
Proof.
  induction l as [|[q w] l IH]; intros N I; [destruct I|]. inversion N as [|? ? N1 N2]; subst. cbn [lookup].
  destruct (String.eqb_spec k q) as [->|M].
  - destruct I as [I|I]; [congruence|]. exfalso. apply N1. apply in_map_iff. exists (q, v). auto.
  - destruct I as [I|I]; [congruence|]. apply IH; assumption.
Qed.
Lemma lookup_some_in {A} k (v : A) l : lookup k l = Some v -> In (k, v) l.
Proof.
  induction l as [|[q w] l IH]; [discriminate|]. cbn [lookup]. destruct (String.eqb_spec k q) as [->|M].
  - intros H. injection H as ->. left. reflexivity.
  - intros H. right. apply IH, H.
Qed.

(** *** Names *)

Lemma camel_upper u n : letter_first n = true -> exported (toCamelCase u n) = true.
Proof.
  destruct n as [|c r]; [discriminate|]. cbn [letter_first]. intros H. unfold toCamelCase.
  destruct (trim_letter c r H) as [t ->]. rewrite (runes_letter c t H).
  pose proof (letter_ascii c H) as A. destruct (ascii_small u c A) as [U [L [D T]]].
  cbn [camel]. rewrite U, L, D, T. unfold letterc in H.
  assert (S0 : (N_of_ascii c < 128)%N) by (apply N.ltb_lt; exact A).
  assert (S1 : (N_of_ascii (upc c) < 128)%N) by (apply N.ltb_lt, upc_ascii; exact A).
  destruct (upperc c) eqn:EU.
  - cbn [app encode]. rewrite encode_small, ascii_N_embedding by exact S0. cbn [append exported]. exact EU.
  - cbn [orb] in H. assert (ED : digitc c = false).
    { destruct (digitc c) eqn:ED; [|reflexivity]. unfold digitc, lowerc, a_digit, a_lower in *.
      apply within_iff in H, ED. lia. }
    rewrite ED, H. cbn [app encode]. rewrite encode_small, ascii_N_embedding by exact S1.
    cbn [append exported]. apply (upc_upper c H).
Qed.

Lemma type_upper u n : letter_first n = true -> exported (schemaNameToTypeName u n) = true.
Proof.
  intros H. unfold schemaNameToTypeName. destruct (prefix_ok u n) as [->|[c [t [-> [U _]]]]]; [|exact U].
  apply camel_upper, H.
Qed.

Lemma exported_not_basic n : exported n = true -> lookup n basics = None.
Proof.
  destruct n as [|c r]; [discriminate|]. cbn [exported]. intros H.
  assert (X : forall d t, upperc d = false -> String.eqb (String c r) (String d t) = false).
  { intros d t D. cbn [String.eqb]. destruct (Ascii.eqb_spec c d) as [->|_]; [congruence|reflexivity]. }
  unfold basics. cbn [lookup]. rewrite !X by reflexivity. reflexivity.
Qed.

(** *** Tags *)

Lemma tag_no_comma n : all tag_char n = true -> forall r, cut_tag (n ++ String comma r) = (n, r).
Proof.
  induction n as [|c n IH]; intros H r; [reflexivity|]. cbn [all] in H. apply andb_true_iff in H. destruct H as [H1 H2].
  cbn [append cut_tag]. destruct (Ascii.eqb_spec c comma) as [->|_]; [discriminate H1|]. rewrite (IH H2). reflexivity.
Qed.
Lemma tag_plain n : all tag_char n = true -> cut_tag n = (n, "").
Proof.
  induction n as [|c n IH]; intros H; [reflexivity|]. cbn [all] in H. apply andb_true_iff in H. destruct H as [H1 H2].
  cbn [cut_tag]. destruct (Ascii.eqb_spec c comma) as [->|_]; [discriminate H1|]. rewrite (IH H2). reflexivity.
Qed.

Lemma json_field_tag u n req b d dep t : good_name n ->
  json_field (mkF (schemaNameToTypeName u n) d dep (Some (json_tag n req b)), t) = [(n, (left_out req b, t))].
Proof.
  intros [L H]. unfold json_field. cbn [f_name f_tag]. rewrite (type_upper u n L).
  assert (V : valid_tag n = true). { unfold valid_tag. rewrite H. destruct n; [discriminate|reflexivity]. }
  assert (D : forall r, String.eqb (n ++ r) "-" = false).
  { destruct n as [|c n]; [discriminate|]. intros r. cbn [append String.eqb]. destruct (Ascii.eqb_spec c "-") as [->|_]; [discriminate L|reflexivity]. }
  assert (D' : String.eqb n "-" = false).
  { destruct n as [|c n]; [discriminate|]. cbn [String.eqb]. destruct (Ascii.eqb_spec c "-") as [->|_]; [discriminate L|reflexivity]. }
  unfold json_tag. change (n ++ ",omitempty")%string with (n ++ String comma "omitempty")%string.
  destruct ((req && negb (b_readonly b) && negb (b_writeonly b)) || b_nullable b) eqn:E.
  - rewrite D', (tag_plain n H), V. change (has_option "omitempty" "") with false. do 3 f_equal. unfold left_out.
    destruct req, (b_readonly b), (b_writeonly b), (b_nullable b); cbn in *; congruence.
  - rewrite D, (tag_no_comma n H), V. change (has_option "omitempty" "omitempty") with true. do 3 f_equal. unfold left_out.
    destruct req, (b_readonly b), (b_writeonly b), (b_nullable b); cbn in *; congruence.
Qed.

(** *** Fields that are seen *)

Lemma count_one (l : list (string * (bool * gty))) f : NoDup (map fst l) -> In f l -> count (fst f) l = 1.
Proof.
  unfold count. induction l as [|g l IH]; intros N I; [destruct I|]. inversion N as [|? ? N1 N2]; subst.
  cbn [filter]. destruct (String.eqb_spec (fst g) (fst f)) as [E|E].
  - cbn [length]. f_equal. assert (Z : filter (fun h => String.eqb (fst h) (fst f)) l = []); [|rewrite Z; reflexivity].
    rewrite E in N1. clear - N1. induction l as [|h l IH]; [reflexivity|]. cbn [filter].
    destruct (String.eqb_spec (fst h) (fst f)) as [Q|_]; [exfalso; apply N1; left; exact Q|].
    apply IH. intros Q. apply N1. right. exact Q.
  - destruct I as [->|I]; [congruence|]. apply IH; assumption.
Qed.
Lemma filter_all {A} (p : A -> bool) l : (forall x, In x l -> p x = true) -> filter p l = l.
Proof.
  induction l as [|x l IH]; intros H; [reflexivity|]. cbn [filter]. rewrite (H x (or_introl eq_refl)). f_equal.
  apply IH. intros y I. apply H. right. exact I.
Qed.
Lemma find_named (l : list (string * (bool * gty))) f : NoDup (map fst l) -> In f l ->
  find (fun g => String.eqb (fst g) (fst f)) l = Some f.
Proof.
  induction l as [|g l IH]; intros N I; [destruct I|]. inversion N as [|? ? N1 N2]; subst. cbn [find].
  destruct (String.eqb_spec (fst g) (fst f)) as [E|E].
  - destruct I as [->|I]; [reflexivity|]. exfalso. apply N1. rewrite E. apply in_map, I.
  - destruct I as [->|I]; [congruence|]. apply IH; assumption.
Qed.

(** *** Steps *)

Lemma finite {A} (P : nat -> A -> Prop) l : (forall x, In x l -> exists m, forall k, m <= k -> P k x) ->
  exists m, forall k, m <= k -> forall x, In x l -> P k x.
Proof.
  induction l as [|x l IH]; intros H; [exists 0; intros k _ x []|].
  destruct IH as [m M]; [intros y I; apply H; right; exact I|]. destruct (H x (or_introl eq_refl)) as [m' M'].
  exists (Nat.max m m'). intros k K y [<-|I]; [apply M'; lia|apply M; [lia|exact I]].
Qed.

Lemma each_both {A B} (f : A -> outcome B) (g : B -> outcome A) l :
  (forall x, In x l -> exists y, f x = Ok y /\ g y = Ok x) ->
  exists ys, each f l = Ok ys /\ each g ys = Ok l.
Proof.
  induction l as [|x l IH]; intros H; [exists []; split; reflexivity|].
  destruct IH as [ys [E1 E2]]; [intros y I; apply H; right; exact I|]. destruct (H x (or_introl eq_refl)) as [y [F G]].
  exists (y :: ys). cbn [each]. rewrite F, G. cbn [bind]. rewrite E1, E2. split; reflexivity.
Qed.
Lemma each_length {A B} (f : A -> outcome B) l : forall ys, each f l = Ok ys -> length ys = length l.
Proof.
  induction l as [|x l IH]; intros ys H; cbn [each] in H; [injection H as <-; reflexivity|].
  destruct (f x); try discriminate. cbn [bind] in H. destruct (each f l); try discriminate. cbn [bind] in H.
  injection H as <-. cbn [length]. f_equal. apply IH. reflexivity.
Qed.

Lemma old_put vs k v k' : old_field (put k v vs) k' = if String.eqb k' k then v else old_field vs k'.
Proof. unfold old_field. rewrite lookup_put. destruct (String.eqb k' k); reflexivity. Qed.

Lemma steps_put (F : list (string * gval) -> string * json -> outcome (list (string * gval)))
    (P : string -> json -> gval -> Prop) ms : NoDup (map fst ms) -> forall vs,
  (forall k x, In (k, x) ms -> exists v, P k x v /\
     forall ws, old_field ws k = old_field vs k -> F ws (k, x) = Ok (put k v ws)) ->
  exists vs', steps F vs ms = Ok vs' /\
    (forall k x, In (k, x) ms -> P k x (old_field vs' k)) /\
    (forall k, ~ In k (map fst ms) -> old_field vs' k = old_field vs k).
Proof.
  induction ms as [|[k x] ms IH]; intros N vs H; [exists vs; split; [reflexivity|split; [intros k x []|reflexivity]]|].
  inversion N as [|? ? N1 N2]; subst. destruct (H k x (or_introl eq_refl)) as [v [Pv Fv]].
  destruct (IH N2 (put k v vs)) as [vs' [E [A B]]].
  { intros k' x' I. destruct (H k' x' (or_intror I)) as [v' [Pv' Fv']]. exists v'. split; [exact Pv'|].
    intros ws W. apply Fv'. rewrite W, old_put. destruct (String.eqb_spec k' k) as [->|_]; [|reflexivity].
    exfalso. apply N1. apply in_map_iff. exists (k, x'). auto. }
  exists vs'. cbn [steps]. rewrite (Fv vs eq_refl). cbn [bind]. split; [exact E|]. split.
  - intros k' x' [I|I]; [|apply A, I]. injection I as <- <-. rewrite B by exact N1. rewrite old_put, String.eqb_refl. exact Pv.
  - intros k' I. rewrite B by (intros Q; apply I; right; exact Q). rewrite old_put.
    destruct (String.eqb_spec k' k) as [->|_]; [exfalso; apply I; left; reflexivity|reflexivity].
Qed.

Lemma steps_map (f : json -> outcome gval) (g : gval -> outcome json) ms :
  increasing (map fst ms) ->
  (forall k x, In (k, x) ms -> exists v, f x = Ok v /\ g v = Ok x) ->
  exists vs, steps (fun vs m => v <- f (snd m) ;; Ok (put (fst m) v vs)) [] ms = Ok vs /\
    map fst vs = map fst ms /\ each (fun v => j <- g (snd v) ;; Ok (fst v, j)) vs = Ok ms.
Proof.
  intros N H. apply increasing_nodup in N.
  assert (X : forall acc, NoDup (map fst acc ++ map fst ms) ->
    exists vs, steps (fun vs m => v <- f (snd m) ;; Ok (put (fst m) v vs)) acc ms = Ok (acc ++ vs) /\
    map fst vs = map fst ms /\ each (fun v => j <- g (snd v) ;; Ok (fst v, j)) vs = Ok ms).
  { clear N. induction ms as [|[k x] ms IH]; intros acc N; [exists []; rewrite app_nil_r; repeat split|].
    destruct (H k x (or_introl eq_refl)) as [v [F G]]. cbn [map fst] in N.
    destruct (IH (fun k' x' I => H k' x' (or_intror I)) (acc ++ [(k, v)])) as [vs [A [B C]]].
    { rewrite map_app, <- app_assoc. exact N. }
    exists ((k, v) :: vs). cbn [steps snd fst]. rewrite F. cbn [bind]. rewrite put_new.
    - rewrite A, <- app_assoc. split; [reflexivity|]. split; [cbn [map fst]; f_equal; exact B|].
      cbn [each snd fst]. rewrite G. cbn [bind]. rewrite C. reflexivity.
    - intros Q. apply NoDup_remove_2 in N. apply N. apply in_app_iff. left. exact Q. }
  apply (X []). exact N.
Qed.

(** *** [any] *)

Lemma round_exact p z : within_bits p z -> round_bits p z = z.
Proof. unfold within_bits, round_bits. intros H. apply Z.leb_le in H. rewrite H. reflexivity. Qed.

Lemma any_all l : (fix go (l : list json) : Prop := match l with [] => True | x :: r => keeps_any x /\ go r end) l <->
  forall x, In x l -> keeps_any x.
Proof.
  induction l as [|y l IH]; [split; [intros _ x []|exact (fun _ => I)]|]. rewrite IH. split.
  - intros [A B] x [<-|I]; [exact A|apply B, I].
  - intros H. split; [apply H; left; reflexivity|]. intros x I. apply H. right. exact I.
Qed.
Lemma any_all_members l :
  (fix go (l : list (string * json)) : Prop := match l with [] => True | x :: r => keeps_any (snd x) /\ go r end) l <->
  forall x, In x l -> keeps_any (snd x).
Proof.
  induction l as [|y l IH]; [split; [intros _ x []|exact (fun _ => I)]|]. rewrite IH. split.
  - intros [A B] x [<-|I]; [exact A|apply B, I].
  - intros H. split; [apply H; left; reflexivity|]. intros x I. apply H. right. exact I.
Qed.

Fixpoint jsize (j : json) : nat :=
  match j with
  | JArr l => S (fold_right (fun x n => jsize x + n) 0 l)
  | JObj ms => S (fold_right (fun x n => jsize (snd x) + n) 0 ms)
  | _ => 1
  end.
Lemma size_arr l x : In x l -> jsize x < jsize (JArr l).
Proof.
  cbn [jsize]. intros H. apply Nat.lt_succ_r. induction l as [|y l IH]; [destruct H|]. cbn [fold_right].
  destruct H as [->|H]; [lia|]. specialize (IH H). lia.
Qed.
Lemma size_obj l k x : In (k, x) l -> jsize x < jsize (JObj l).
Proof.
  cbn [jsize]. intros H. apply Nat.lt_succ_r. induction l as [|y l IH]; [destruct H|]. cbn [fold_right].
  destruct H as [->|H]; [cbn [snd]; lia|]. specialize (IH H). lia.
Qed.

Lemma any_same n : forall j, jsize j <= n -> keeps_any j -> any_json j = j.
Proof.
  induction n as [|n IH]; intros j L K; [destruct j; cbn in L; lia|].
  destruct j as [| |z| |l|ms]; try reflexivity.
  - cbn [any_json]. rewrite round_exact by exact K. reflexivity.
  - cbn [any_json keeps_any] in *. rewrite any_all in K. f_equal.
    rewrite <- (map_id l) at 2. apply map_ext_in. intros x I. apply IH; [|apply K, I]. pose proof (size_arr l x I). lia.
  - cbn [any_json]. cbn [keeps_any] in K. rewrite any_all_members in K. destruct K as [K1 K2].
    assert (E : map (fun m => (fst m, any_json (snd m))) ms = ms).
    { rewrite <- (map_id ms) at 2. apply map_ext_in. intros [k x] I. cbn [fst snd]. f_equal.
      apply IH; [|apply (K2 _ I)]. pose proof (size_obj ms k x I). lia. }
    rewrite E, by_key_id by exact K1. reflexivity.
Qed.

(** *** Types *)

Definition dname (d : decl) : string := fst (fst (fst (fst (fst d)))).

(** The types of a document, after the pass that removes pointers. *)
Definition doc_types (u : unicode) (env : string -> schema) (all : bool) (l : list (string * sref)) (k : string) : option gty :=
  option_map (unptr all) (lookup k (map (fun d => (dname d, dty d)) (doc_decls u env l))).

Section Doc.
Variable u : unicode.
Variable env : string -> schema.
Variable l : list (string * sref).
Variable np : bool.
Hypothesis OK : doc_ok l.
Hypothesis KEPT : forall p, In p l -> kept_ref false (snd p).
Hypothesis NAMES : NoDup (dnames (doc_decls u env l)).
Hypothesis ENV : forall n s, In (n, Inl s) l -> env (ref_to n) = s.

Let D := doc_decls u env l.
Let T := doc_types u env np l.

Lemma type_of d : In d D -> T (dname d) = Some (unptr np (dty d)).
Proof.
  intros I. unfold T, doc_types. rewrite (lookup_in (dname d) (dty d)); [reflexivity| |].
  - rewrite map_map. cbn [fst]. exact NAMES.
  - apply in_map_iff. exists d. auto.
Qed.

Lemma component n s : In (n, Inl s) l ->
  T (schemaNameToTypeName u n) = Some (unptr np (body u env [n] s)) /\ incl (defs_in u env true [n] s) D.
Proof.
  intros I. assert (B : In (n, Inl s) (by_key l)) by (apply by_key_in; exact I). split.
  - apply (type_of (schemaNameToTypeName u n, n, b_desc (s_base s), alias_of (Inl s), top_constants u (Inl s), body u env [n] s)).
    apply in_flat_map. exists (n, Inl s). split; [exact B|]. left. reflexivity.
  - intros d J. apply in_flat_map. exists (n, Inl s). split; [exact B|]. right. exact J.
Qed.

(** *** Forms *)

Lemma scalar_form t f g : scalar t f = Some g ->
  if String.eqb t "string" && existsb (String.eqb f) ["byte"; "binary"] then g = GSlice (GId "byte")
  else if String.eqb t "string" && existsb (String.eqb f) other_strings then
    exists n, g = GId n /\ n <> "byte"
  else exists n b, g = GId n /\ lookup n basics = Some b /\ b <> BAny.
Proof.
  unfold scalar, formats. intros H.
  destruct (String.eqb_spec t "integer") as [->|N1].
  - change (String.eqb "integer" "string") with false. cbn [andb].
    cbn [map lookup] in H.
    repeat match type of H with (match (if ?c then _ else _) with _ => _ end) = _ =>
             destruct c; [injection H as <-; do 2 eexists; split; [reflexivity|split; [reflexivity|discriminate]]|] end.
    injection H as <-. do 2 eexists; split; [reflexivity|split; [reflexivity|discriminate]].
  - destruct (String.eqb_spec t "number") as [->|N2].
    { change (String.eqb "number" "string") with false in *. cbn [andb]. cbn [lookup] in H.
      repeat match type of H with (match (if ?c then _ else _) with _ => _ end) = _ =>
             destruct c; [injection H as <-; do 2 eexists; split; [reflexivity|split; [reflexivity|discriminate]]|] end.
      discriminate. }
    destruct (String.eqb_spec t "boolean") as [->|N3].
    { change (String.eqb "boolean" "string") with false in *. cbn [andb]. cbn [lookup] in H.
      destruct (String.eqb f ""); [injection H as <-; do 2 eexists; split; [reflexivity|split; [reflexivity|discriminate]]|discriminate]. }
    destruct (String.eqb_spec t "string") as [->|N4]; [|discriminate]. cbn [andb existsb other_strings lookup] in *.
    destruct (String.eqb f "byte"); [injection H as <-; reflexivity|].
    destruct (String.eqb f "binary"); [injection H as <-; reflexivity|].
    cbn [orb].
    repeat match type of H with (match (if ?c then _ else _) with _ => _ end) = _ =>
             destruct c; [injection H as <-; cbn [orb]; eexists; split; [reflexivity|discriminate]|] end.
    injection H as <-. cbn [orb]. do 2 eexists; split; [reflexivity|split; [reflexivity|discriminate]].
Qed.

Lemma body_form path s : simple s ->
  match kind_of s with
  | KStruct => exists fs a v, body u env path s = GStruct fs a v
  | KMap => exists t, body u env path s = GMap t
  | KSlice => exists t, body u env path s = GSlice t
  | KAny => body u env path s = GId "any"
  | KScalar => exists n b, body u env path s = GId n /\ lookup n basics = Some b /\ b <> BAny
  | KOther => exists n, body u env path s = GId n /\ n <> "byte"
  end.
Proof.
  destruct s as [b ps it ad al an on]. intros S0. cbn [simple] in S0. destruct S0 as [_ [_ [_ [_ [_ [_ HT]]]]]].
  rewrite body_eq. cbn [kind_of]. destruct (objectlike b) eqn:O.
  - destruct (nonempty ps || _ || _); [do 3 eexists; reflexivity|].
    destruct (b_has b || match ad with Some _ => true | None => false end) eqn:M; cbn [orb]; [eexists; reflexivity|].
    destruct (String.eqb (b_type b) "object"); [eexists; reflexivity|reflexivity].
  - destruct (arraylike b) eqn:A; cbn [orb]; [eexists; reflexivity|].
    destruct HT as [HT|[HT|HT]]; try discriminate. destruct (scalar (b_type b) (b_format b)) as [g|] eqn:Q; [|congruence].
    pose proof (scalar_form _ _ _ Q) as F.
    destruct (String.eqb (b_type b) "string" && existsb (String.eqb (b_format b)) ["byte"; "binary"]); [eexists; exact F|].
    destruct (String.eqb (b_type b) "string" && existsb (String.eqb (b_format b)) other_strings); exact F.
Qed.

Lemma unptr_id t : match t with GPtr _ => True | _ => unptr_field np t = t end.
Proof. destruct t; reflexivity || exact I. Qed.

(** A declared type behaves as what it is declared as. *)
Lemma dec_id n t k old j : lookup n basics = None -> T n = Some t -> dec T (S k) (GId n) old j = dec T k t old j.
Proof. intros B E. cbn [dec]. rewrite B, E. reflexivity. Qed.
Lemma enc_id n t k v : lookup n basics = None -> T n = Some t -> enc T (S k) (GId n) v = enc T k t v.
Proof. intros B E. cbn [enc]. rewrite B, E. reflexivity. Qed.
Lemma zero_id n t k : lookup n basics = None -> T n = Some t -> zero T (S k) (GId n) = zero T k t.
Proof. intros B E. cbn [zero]. rewrite B, E. reflexivity. Qed.

(** Data that passes through. *)
Definition keeps_at (t : gty) (kd : kind) (j : json) : Prop :=
  exists m, forall k, m <= k -> exists v,
    dec T k t (zero T k t) j = Ok v /\ enc T k t v = Ok j /\ (is_empty v = true -> empty_of kd j).

Lemma keeps_id n t kd j : exported n = true -> T n = Some t -> keeps_at t kd j -> keeps_at (GId n) kd j.
Proof.
  intros X E [m M]. exists (S m). intros [|k] K; [lia|]. destruct (M k ltac:(lia)) as [v V]. exists v.
  pose proof (exported_not_basic n X) as B. rewrite (dec_id n t), (enc_id n t), (zero_id n t) by assumption. exact V.
Qed.

(** A type whose nil stands for null. *)
Definition nil_at (t : gty) : Prop :=
  exists m, forall k, m <= k -> zero T k t = VNil /\ dec T k t VNil JNull = Ok VNil /\ enc T k t VNil = Ok JNull.
Definition empty_at (t : gty) : Prop := exists m, forall k, m <= k -> is_empty (zero T k t) = true.

Lemma nil_id n t : exported n = true -> T n = Some t -> nil_at t -> nil_at (GId n).
Proof.
  intros X E [m M]. exists (S m). intros [|k] K; [lia|]. pose proof (exported_not_basic n X) as B.
  rewrite (dec_id n t), (enc_id n t), (zero_id n t) by assumption. apply M. lia.
Qed.
Lemma empty_id n t : exported n = true -> T n = Some t -> empty_at t -> empty_at (GId n).
Proof.
  intros X E [m M]. exists (S m). intros [|k] K; [lia|]. pose proof (exported_not_basic n X) as B.
  rewrite (zero_id n t) by assumption. apply M. lia.
Qed.

Definition nilable (kd : kind) : bool := match kd with KMap | KSlice | KAny => true | _ => false end.
Definition emptyable (kd : kind) : bool := match kd with KStruct | KOther => false | _ => true end.

Lemma body_nil path s : simple s -> nilable (kind_of s) = true -> nil_at (unptr np (body u env path s)).
Proof.
  intros S0 K. pose proof (body_form path s S0) as F. destruct (kind_of s); try discriminate.
  - destruct F as [t ->]. exists 1. intros [|k] L; [lia|]. repeat split.
  - destruct F as [t ->]. exists 1. intros [|k] L; [lia|]. repeat split.
  - rewrite F. exists 1. intros [|k] L; [lia|]. repeat split.
Qed.
Lemma body_empty path s : simple s -> emptyable (kind_of s) = true -> empty_at (unptr np (body u env path s)).
Proof.
  intros S0 K. pose proof (body_form path s S0) as F. destruct (kind_of s); try discriminate.
  - destruct F as [t ->]. exists 1. intros [|k] L; [lia|]. reflexivity.
  - destruct F as [t ->]. exists 1. intros [|k] L; [lia|]. reflexivity.
  - rewrite F. exists 1. intros [|k] L; [lia|]. reflexivity.
  - destruct F as [n [b [-> [B _]]]]. exists 1. intros [|k] L; [lia|]. cbn [unptr zero]. rewrite B. destruct b; reflexivity.
Qed.

Lemma path_letter path : path_ok path -> exported (enum_name u path) = true.
Proof. intros P. apply type_upper, path_first, P. Qed.

Lemma used_eq path sfx s : used u env path sfx (Inl s) =
  if enumlike (s_base s) && Nat.ltb 1 (length path) then GId (enum_name u path)
  else if owned (Inl s) then GId (pathToTypeName u (path ++ sfx)) else body u env path s.
Proof. reflexivity. Qed.

(** From the type of a schema to how it is referred to. *)
Lemma used_lift (P : gty -> Prop) path sfx r w :
  (forall n t, exported n = true -> T n = Some t -> P t -> P (GId n)) ->
  path_ok path -> simple_ref r -> known l r -> owned r = false -> incl (defs u env w path sfx r) D ->
  (forall p s, simple s -> path_ok p -> match r with Inl s' => s = s' /\ p = path | Ref q => exists n, q = ref_to n /\ In (n, Inl s) l /\ p = [n] end ->
     P (unptr np (body u env p s))) ->
  P (unptr np (used u env path sfx r)).
Proof.
  intros ID PO SI KN OW IN H. destruct r as [q|s].
  - destruct KN as [n [s [-> I]]]. cbn [used unptr]. cbn [simple_ref] in SI. destruct SI as [n' [E [L C]]].
    assert (n' = n) as ->.
    { unfold ref_to in E. clear - E. cbn [append] in E. repeat (injection E as E). congruence. }
    rewrite (ref_name_of u n C). destruct (component n s I) as [CT CI]. pose proof (OK _ I) as [_ SS].
    apply (ID _ _ (type_upper u n L) CT). apply H; [exact SS|exact L|]. exists n. auto.
  - rewrite used_eq. cbn [simple_ref] in SI.
    destruct (enumlike (s_base s) && Nat.ltb 1 (length path)) eqn:Q.
    + cbn [unptr]. apply (ID _ (unptr np (body u env path s))); [apply path_letter, PO| |apply H; auto].
      apply (type_of (enum_name u path, dotted u path, b_desc (s_base s), false, constants u (s_base s), body u env path s)).
      apply IN. cbn [defs]. apply in_app_iff. right. unfold own. rewrite Q. left. reflexivity.
    + rewrite OW. apply H; auto.
Qed.

Lemma used_not_pointer path sfx r : simple_ref r -> forall t, unptr np (used u env path sfx r) <> GPtr t.
Proof.
  intros S0 t. destruct r as [q|s]; [discriminate|]. rewrite used_eq. destruct (_ && _); [discriminate|].
  destruct (owned (Inl s)); [discriminate|]. pose proof (body_form path s S0) as F.
  destruct (kind_of s); repeat match type of F with exists _, _ => destruct F as [? F] end;
    try match type of F with _ /\ _ => destruct F as [F _] end; rewrite F; discriminate.
Qed.

(** What the pass makes of the pointer of a property. *)
Lemma pointer_left path r : simple_ref r -> skips r = false -> 1 < length path ->
  unptr_field np (GPtr (unptr np (used u env path [] r))) =
  (if pointer_stays np r then GPtr (unptr np (used u env path [] r)) else unptr np (used u env path [] r)).
Proof.
  intros S0 SK LE. unfold pointer_stays. cbn [unptr_field]. destruct np; [reflexivity|]. cbn [negb andb].
  destruct r as [q|s]; [reflexivity|]. rewrite SK, !used_eq. cbn [negb andb]. apply Nat.ltb_lt in LE. rewrite LE, andb_true_r.
  destruct (enumlike (s_base s)); [reflexivity|]. cbn [orb].
  pose proof (body_form path s S0) as F. destruct (owned (Inl s)) eqn:OW.
  { assert (K : kind_of s = KStruct).
    { destruct s as [b ps it ad al an on]. cbn [owned] in OW. apply andb_true_iff in OW. destruct OW as [OW _].
      unfold structlike in OW. cbn [s_base s_props s_anyOf s_oneOf] in OW. apply andb_true_iff in OW.
      cbn [kind_of]. destruct OW as [-> ->]. reflexivity. }
    rewrite K. reflexivity. }
  destruct (kind_of s); repeat match type of F with exists _, _ => destruct F as [? F] end;
    try match type of F with _ /\ _ => destruct F as [F _] end; rewrite F; reflexivity.
Qed.

Lemma path_upper path : path_ok path -> exported (pathToTypeName u path) = true.
Proof.
  destruct path as [|n path]; [intros []|]. cbn [path_ok]. intros H. unfold pathToTypeName. cbn [map].
  apply (camel_upper u) in H. destruct (toCamelCase u n) as [|c t]; [discriminate|].
  destruct (map (toCamelCase u) path); exact H.
Qed.

Lemma exported_not_byte n : exported n = true -> is_byte (GId n) = false.
Proof.
  cbn [is_byte]. destruct (String.eqb_spec n "byte") as [->|_]; [discriminate|reflexivity].
Qed.

Lemma used_not_byte path sfx r : path_ok path -> simple_ref r -> is_byte (unptr np (used u env path sfx r)) = false.
Proof.
  intros PO S0. destruct r as [q|s].
  - destruct S0 as [n [-> [L C]]]. cbn [used unptr]. rewrite (ref_name_of u n C). apply exported_not_byte, type_upper, L.
  - rewrite used_eq. destruct (_ && _); [apply exported_not_byte, path_letter, PO|].
    destruct (owned (Inl s)); [apply exported_not_byte, path_upper, path_app, PO|].
    pose proof (body_form path s S0) as F.
    destruct (kind_of s); repeat match type of F with exists _, _ => destruct F as [? F] end;
      try match type of F with _ /\ _ => destruct F as [F F2] end; rewrite F; try reflexivity; cbn [unptr is_byte].
    + destruct F2 as [F2 _]. destruct (String.eqb_spec x "byte") as [->|_]; [discriminate|reflexivity].
    + destruct (String.eqb_spec x "byte") as [->|_]; [congruence|reflexivity].
Qed.

(** *** Scalars *)

Lemma at_basic n b kd j v : lookup n basics = Some b -> dec_basic b (zero_basic b) j = Ok v -> enc_basic v = Ok j ->
  (is_empty v = true -> empty_of kd j) -> keeps_at (GId n) kd j.
Proof.
  intros B E1 E2 E3. exists 1. intros [|k] L; [lia|]. exists v. cbn [dec zero enc]. rewrite B. auto.
Qed.

Lemma any_at j : keeps_any j -> keeps_at (GId "any") KAny j.
Proof.
  intros K. pose proof (any_same (jsize j) j (le_n _) K) as E. destruct j as [| | | | |].
  - apply (at_basic _ BAny _ _ VNil); [reflexivity..|exact (fun _ => I)].
  - apply (at_basic _ BAny _ _ (VAny (JBool b))); [reflexivity..|discriminate].
  - apply (at_basic _ BAny _ _ (VAny (JNum z))); [reflexivity| |reflexivity|discriminate]. cbn [dec_basic]. rewrite E. reflexivity.
  - apply (at_basic _ BAny _ _ (VAny (JStr s))); [reflexivity..|discriminate].
  - apply (at_basic _ BAny _ _ (VAny (JArr l0))); [reflexivity| |reflexivity|discriminate]. cbn [dec_basic]. rewrite E. reflexivity.
  - apply (at_basic _ BAny _ _ (VAny (JObj ms))); [reflexivity| |reflexivity|discriminate]. cbn [dec_basic]. rewrite E. reflexivity.
Qed.

Lemma int_at n lo hi z : lookup n basics = Some (BInt lo hi) -> (lo <= z <= hi)%Z -> keeps_at (GId n) KScalar (JNum z).
Proof.
  intros B H. apply (at_basic _ _ _ _ (VNum z) B); [|reflexivity|].
  - cbn [dec_basic]. destruct (Z.leb_spec lo z); [|lia]. destruct (Z.leb_spec z hi); [|lia]. reflexivity.
  - cbn [is_empty empty_of]. apply Z.eqb_eq.
Qed.
Lemma float_at n p z : lookup n basics = Some (BFloat p) -> within_bits p z -> keeps_at (GId n) KScalar (JNum z).
Proof.
  intros B H. apply (at_basic _ _ _ _ (VNum z) B); [|reflexivity|].
  - cbn [dec_basic]. rewrite round_exact by exact H. reflexivity.
  - cbn [is_empty empty_of]. apply Z.eqb_eq.
Qed.

Lemma scalar_keeps path b ps it ad j : objectlike b = false -> arraylike b = false ->
  keeps_scalar (b_type b) (b_format b) j ->
  keeps_at (unptr np (body u env path (Sch b ps it ad None None None))) (kind_of (Sch b ps it ad None None None)) j.
Proof.
  intros O A K. rewrite body_eq. cbn [kind_of]. rewrite O, A. cbn [orb].
  unfold keeps_scalar in K. destruct j as [|x|z|s|?|?]; try contradiction.
  - destruct K as [H H0]. rewrite H, H0. cbn. apply (at_basic "bool" BBool _ _ (VBool x)); [reflexivity..|]. destruct x; [discriminate|exact (fun _ => I)].
  - destruct K as [[E K]|[E K]]; rewrite E.
    + change (String.eqb "integer" "string") with false. cbn [andb]. unfold scalar, formats.
      change (String.eqb "integer" "integer") with true. cbv iota. cbn [map lookup].
      unfold int_bounds in K. cbn [lookup] in K.
      repeat match goal with
      | |- context [String.eqb (b_format b) ?c] =>
          destruct (String.eqb_spec (b_format b) c) as [->|?];
          [first [cbn; eapply int_at; [reflexivity|lia]
                 |cbn in K |- *; eapply int_at; [reflexivity|lia]]|]
      end.
      destruct (String.eqb_spec (b_format b) "int64") as [Q|Q].
      { rewrite Q in *. cbn. eapply int_at; [reflexivity|lia]. }
      eapply int_at; [reflexivity|].
      repeat match type of K with
      | context [String.eqb (b_format b) ?c] =>
          destruct (String.eqb_spec (b_format b) c) as [?|?]; [congruence|]
      end. cbn in K |- *. lia.
    + change (String.eqb "number" "string") with false. cbn [andb].
      destruct K as [[-> K]|[[->| ->] K]]; eapply float_at; [reflexivity|exact K|reflexivity|exact K|reflexivity|exact K].
  - destruct K as [H H0]. rewrite H. change (String.eqb "string" "string") with true. cbn [andb].
    assert (N : forall f, In f other_strings -> String.eqb (b_format b) f = false).
    { intros f If. destruct (String.eqb_spec (b_format b) f) as [Q|_]; [|reflexivity]. exfalso. apply H0. rewrite Q. exact If. }
    unfold other_strings in *. cbn [existsb]. unfold scalar, formats.
    change (String.eqb "string" "integer") with false. change (String.eqb "string" "number") with false.
    change (String.eqb "string" "boolean") with false. change (String.eqb "string" "string") with true. cbv iota. cbn [lookup].
    rewrite !N by (cbn; tauto). cbn [orb unptr].
    apply (at_basic "string" BStr _ _ (VStr s)); [reflexivity..|]. cbn [is_empty empty_of]. destruct s; [auto|discriminate].
Qed.

(** *** Structs *)

Definition field_ty (path : list string) (b : base) (p : string * sref) : gty :=
  unptr_field np (unptr np (snd (field_of u env (b_required b) (fst p) (snd p) (used u env (path ++ [fst p]) [] (snd p))))).
Definition field_out (b : base) (p : string * sref) : bool :=
  left_out (existsb (String.eqb (fst p)) (b_required b)) (s_base (value env (snd p))).

Lemma struct_visible path b ps a v : NoDup (map fst ps) -> (forall p, In p ps -> good_name (fst p)) ->
  forall fs, unptr np (GStruct (map snd (by_key (map (fun p =>
             (fst p, field_of u env (b_required b) (fst p) (snd p) (used u env (path ++ [fst p]) [] (snd p)))) ps))) a v)
    = GStruct fs (option_map (unptr np) a) v ->
  visible fs = map (fun p => (fst p, (field_out b p, field_ty path b p))) (by_key ps).
Proof.
  intros N G fs E. rewrite (by_key_map (fun p => field_of u env (b_required b) (fst p) (snd p) (used u env (path ++ [fst p]) [] (snd p)))) in E.
  rewrite map_map in E. cbn [snd unptr] in E. rewrite map_map in E. injection E as <-. unfold visible.
  assert (X : flat_map json_field (map (fun p => (fst (field_of u env (b_required b) (fst p) (snd p) (used u env (path ++ [fst p]) [] (snd p))), field_ty path b p)) (by_key ps))
              = map (fun p => (fst p, (field_out b p, field_ty path b p))) (by_key ps)).
  { assert (H : forall p, In p (by_key ps) -> good_name (fst p)) by (intros p I; apply G, by_key_in, I).
    clear N G. induction (by_key ps) as [|p qs IH]; [reflexivity|]. cbn [map flat_map].
    rewrite IH by (intros q I; apply H; right; exact I).
    unfold field_of at 1. cbn [fst]. rewrite (json_field_tag u (fst p)) by (apply H; left; reflexivity). reflexivity. }
  cbv zeta. match goal with |- context [flat_map json_field ?m] =>
    replace (flat_map json_field m) with (map (fun p => (fst p, (field_out b p, field_ty path b p))) (by_key ps)) by (symmetry; exact X) end.
  apply filter_all. intros f I. rewrite count_one; [reflexivity| |exact I].
  rewrite map_map. cbn [fst]. apply increasing_nodup, by_key_increasing, N.
Qed.

(** The members that are written are those that were read. *)
Lemma members_back (ps : list (string * sref)) (ms : list (string * json)) (vs : list (string * gval))
    (fo : string * sref -> bool) (ft : string * sref -> gty) (e : gty -> gval -> outcome json) :
  increasing (map fst ps) -> increasing (map fst ms) ->
  (forall k x, In (k, x) ms -> exists r, In (k, r) ps) ->
  (forall p x, In p ps -> In (fst p, x) ms ->
     e (ft p) (old_field vs (fst p)) = Ok x /\ fo p && is_empty (old_field vs (fst p)) = false) ->
  (forall p, In p ps -> ~ In (fst p) (map fst ms) -> fo p && is_empty (old_field vs (fst p)) = true) ->
  each (fun f => let '(k, (_, t)) := f in j <- e t (old_field vs k) ;; Ok (k, j))
    (filter (fun f => negb (fst (snd f) && is_empty (old_field vs (fst f)))) (map (fun p => (fst p, (fo p, ft p))) ps))
  = Ok ms.
Proof.
  intros I1 I2 SUB P A.
  set (R := flat_map (fun p : string * sref => match lookup (fst p) ms with Some x => [(fst p, x)] | None => [] end) ps).
  assert (EQ : ms = R).
  { apply increasing_ext; [exact I2| |].
    - unfold R. clear - I1. induction ps as [|p ps IH]; [exact I|]. cbn [map increasing] in I1. destruct I1 as [H1 H2].
      cbn [flat_map]. destruct (lookup (fst p) ms); cbn [app]; [|apply IH, H2]. cbn [map increasing fst]. split; [|apply IH, H2].
      intros b B. apply H1. apply in_map_iff in B. destruct B as [y [<- B]]. apply in_flat_map in B. destruct B as [q [Q B]].
      destruct (lookup (fst q) ms); [|destruct B]. destruct B as [<-|[]]. cbn [fst]. apply in_map, Q.
    - intros [k x]. unfold R. rewrite in_flat_map. split.
      + intros J. destruct (SUB k x J) as [r J']. exists (k, r). split; [exact J'|]. cbn [fst].
        rewrite (lookup_in k x ms (increasing_nodup _ I2) J). left. reflexivity.
      + intros [p [_ J]]. destruct (lookup (fst p) ms) as [y|] eqn:E; [|destruct J]. destruct J as [J|[]].
        injection J as <- <-. apply lookup_some_in, E. }
  assert (M : forall qs, incl qs ps ->
    each (fun f => let '(k, (_, t)) := f in j <- e t (old_field vs k) ;; Ok (k, j))
      (filter (fun f => negb (fst (snd f) && is_empty (old_field vs (fst f)))) (map (fun p => (fst p, (fo p, ft p))) qs))
    = Ok (flat_map (fun p : string * sref => match lookup (fst p) ms with Some x => [(fst p, x)] | None => [] end) qs)).
  { induction qs as [|p qs IH]; intros J; [reflexivity|]. cbn [map filter fst snd flat_map].
    assert (IH' := IH (fun y Y => J y (or_intror Y))).
    destruct (lookup (fst p) ms) as [x|] eqn:E.
    - destruct (P p x (J p (or_introl eq_refl)) (lookup_some_in _ _ _ E)) as [P1 P2]. rewrite P2. cbn [negb each].
      rewrite P1. cbn [bind]. rewrite IH'. reflexivity.
    - rewrite A; [exact IH'|apply J; left; reflexivity|]. intros Q. apply in_map_iff in Q. destruct Q as [[k x] [Q1 Q2]].
      cbn [fst] in Q1. subst k. rewrite (lookup_in _ x ms (increasing_nodup _ I2) Q2) in E. discriminate. }
  rewrite (M ps (fun y Y => Y)). fold R. rewrite <- EQ. reflexivity.
Qed.

Lemma keeps_not_owned r j : keeps env l np r j -> owned r = false.
Proof.
  intros K. inversion K; subst; try reflexivity.
  - cbn [owned]. unfold structlike. cbn [s_base]. rewrite H. reflexivity.
  - cbn [owned]. unfold structlike. cbn [s_base]. unfold arraylike in H. apply String.eqb_eq in H. unfold objectlike. rewrite H. reflexivity.
  - cbn [owned]. unfold structlike. cbn. rewrite andb_false_r. reflexivity.
  - cbn [owned]. unfold structlike. cbn. rewrite andb_false_r. reflexivity.
  - cbn [owned]. unfold structlike, more_of, union_of. cbn [s_base s_addl s_anyOf s_oneOf elements app nonempty]. rewrite H1. apply andb_false_r.
Qed.
Lemma keeps_no_skip r j : keeps env l np r j -> skips r = false.
Proof.
  intros K. unfold skips. inversion K; subst; try reflexivity; cbn [s_base].
  - destruct (String.eqb_spec (b_type b) "string") as [E|_]; [|reflexivity].
    destruct (String.eqb_spec (b_format b) "json") as [F|_]; [|reflexivity].
    exfalso. rewrite E, F in H1. unfold keeps_scalar in H1. destruct j; try contradiction.
    + destruct H1; discriminate.
    + destruct H1 as [[H1 _]|[H1 _]]; discriminate.
    + destruct H1 as [_ H1]. apply H1. cbn. tauto.
  - unfold arraylike in H. apply String.eqb_eq in H. rewrite H. reflexivity.
  - cbn [kind_of] in H. destruct (objectlike b) eqn:O.
    + unfold objectlike in O. apply orb_true_iff in O. destruct O as [O|O]; apply String.eqb_eq in O; rewrite O; reflexivity.
    + repeat match type of H with context [if ?c then _ else _] => destruct c; try discriminate end.
  - cbn [kind_of] in H. destruct (objectlike b) eqn:O.
    + unfold objectlike in O. apply orb_true_iff in O. destruct O as [O|O]; apply String.eqb_eq in O; rewrite O; reflexivity.
    + repeat match type of H with context [if ?c then _ else _] => destruct c; try discriminate end.
  - unfold objectlike in H. apply orb_true_iff in H. destruct H as [H|H]; apply String.eqb_eq in H; rewrite H; reflexivity.
Qed.
Lemma keeps_of_ref q j : keeps env l np (Ref q) j ->
  exists n s, q = ref_to n /\ In (n, Inl s) l /\ keeps env l np (Inl s) j.
Proof. intros K. inversion K; subst. eauto. Qed.
Lemma keeps_known r j : keeps env l np r j -> known l r.
Proof. intros K. inversion K; subst; cbn [known]; eauto. Qed.

Lemma kind_string s : objectlike (s_base s) = true \/ kind_of s = KAny \/ kind_of s = KMap \/ kind_of s = KSlice \/ kind_of s = KStruct ->
  skips (Inl s) = false.
Proof.
  destruct s as [b ps it ad al an on]. unfold skips. cbn [s_base kind_of]. destruct (objectlike b) eqn:O.
  - intros _. unfold objectlike in O. apply orb_true_iff in O. destruct O as [O|O]; apply String.eqb_eq in O; rewrite O; reflexivity.
  - intros H. destruct (arraylike b) eqn:A; [unfold arraylike in A; apply String.eqb_eq in A; rewrite A; reflexivity|].
    cbn [orb] in H. destruct (String.eqb (b_type b) "string"); [|reflexivity]. cbn [andb] in *.
    destruct (String.eqb_spec (b_format b) "json") as [E|_]; [|reflexivity]. rewrite E in H.
    exfalso. vm_compute in H. destruct H as [H|[H|[H|[H|H]]]]; discriminate.
Qed.

(** *** Properties *)

Lemma path_long path k : path_ok path -> 1 < length (path ++ [k]).
Proof. destruct path; [intros []|]. intros _. rewrite app_length. cbn [length]. lia. Qed.

Lemma field_ty_eq path b p : path_ok path -> simple_ref (snd p) ->
  let t1 := unptr np (used u env (path ++ [fst p]) [] (snd p)) in
  field_ty path b p =
  (if is_optional (existsb (String.eqb (fst p)) (b_required b)) (s_base (value env (snd p))) && negb (skips (snd p))
      && pointer_stays np (snd p)
   then GPtr t1 else t1).
Proof.
  intros P S0. cbv zeta. unfold field_ty, field_of. cbn [snd].
  destruct (is_optional _ _); cbn [andb].
  - destruct (skips (snd p)) eqn:SK; cbn [negb andb].
    + pose proof (used_not_pointer (path ++ [fst p]) [] (snd p) S0) as N.
      destruct (unptr np (used u env (path ++ [fst p]) [] (snd p))); try reflexivity. exfalso. eapply N. reflexivity.
    + cbn [unptr]. apply (pointer_left _ _ S0 SK (path_long path (fst p) P)).
  - pose proof (used_not_pointer (path ++ [fst p]) [] (snd p) S0) as N.
    destruct (unptr np (used u env (path ++ [fst p]) [] (snd p))); try reflexivity. exfalso. eapply N. reflexivity.
Qed.

Definition member_at (t : gty) (out : bool) (x : json) : Prop :=
  exists m, forall k, m <= k -> exists v,
    dec T k t (zero T k t) x = Ok v /\ enc T k t v = Ok x /\ out && is_empty v = false.

Lemma pointer_member t kd x out : x <> JNull -> keeps_at t kd x -> member_at (GPtr t) out x.
Proof.
  intros N [m M]. exists (S m). intros [|k] L; [lia|]. destruct (M k ltac:(lia)) as [v [E1 [E2 _]]]. exists (VPtr v).
  cbn [dec zero enc]. rewrite E1, E2. destruct x; [congruence|..]; repeat split; apply andb_false_r.
Qed.
Lemma pointer_null t : member_at (GPtr t) false JNull.
Proof. exists 1. intros [|k] L; [lia|]. exists VNil. repeat split. Qed.
Lemma nil_null t : nil_at t -> member_at t false JNull.
Proof. intros [m M]. exists m. intros k K. destruct (M k K) as [-> [A B]]. exists VNil. auto. Qed.

Lemma used_nil path r w : path_ok path -> simple_ref r -> known l r -> owned r = false -> incl (defs u env w path [] r) D ->
  nilable (kind_at env r) = true -> nil_at (unptr np (used u env path [] r)).
Proof.
  intros P S0 K O I N. apply (used_lift nil_at path [] r w); auto.
  - exact nil_id.
  - intros p s SS PP H. apply body_nil; [exact SS|]. destruct r as [q|s'].
    + destruct H as [n [-> [J _]]]. cbn [kind_at] in N. rewrite (ENV n s J) in N. exact N.
    + destruct H as [-> _]. exact N.
Qed.
Lemma used_empty path r w : path_ok path -> simple_ref r -> known l r -> owned r = false -> incl (defs u env w path [] r) D ->
  emptyable (kind_at env r) = true -> empty_at (unptr np (used u env path [] r)).
Proof.
  intros P S0 K O I N. apply (used_lift empty_at path [] r w); auto.
  - exact empty_id.
  - intros p s SS PP H. apply body_empty; [exact SS|]. destruct r as [q|s'].
    + destruct H as [n [-> [J _]]]. cbn [kind_at] in N. rewrite (ENV n s J) in N. exact N.
    + destruct H as [-> _]. exact N.
Qed.
Lemma kind_not_owned r : kind_at env r <> KStruct -> owned r = false.
Proof.
  destruct r as [q|[b ps it ad al an on]]; [reflexivity|]. cbn [kind_at kind_of owned]. unfold structlike. cbn [s_base s_props s_anyOf s_oneOf].
  destruct (objectlike b); [|reflexivity]. cbn [andb]. destruct (nonempty ps || _ || _); [congruence|reflexivity].
Qed.
Lemma nilable_no_skip r : nilable (kind_at env r) = true -> skips r = false.
Proof.
  destruct r as [q|s]; [reflexivity|]. cbn [kind_at]. intros N. apply kind_string. destruct (kind_of s); try discriminate; auto 6.
Qed.

Lemma property_at path b p x w : path_ok path -> simple_ref (snd p) -> known l (snd p) ->
  incl (defs u env w (path ++ [fst p]) [] (snd p)) D ->
  (keeps env l np (snd p) x -> keeps_at (unptr np (used u env (path ++ [fst p]) [] (snd p))) (kind_at env (snd p)) x) ->
  (let b' := s_base (value env (snd p)) in
   let stays := pointer_stays np (snd p) in
   (x = JNull /\ field_out b p = false /\
    (b_nullable b' = true /\ (stays = true \/ kind_at env (snd p) = KMap \/ kind_at env (snd p) = KSlice) \/
     kind_at env (snd p) = KAny /\ keeps env l np (snd p) JNull)) \/
   (x <> JNull /\ keeps env l np (snd p) x /\ (field_out b p = false \/ stays = true \/ ~ empty_of (kind_at env (snd p)) x))) ->
  member_at (field_ty path b p) (field_out b p) x.
Proof.
  cbv zeta. intros P S0 KN IN IH H. rewrite (field_ty_eq path b p P S0).
  assert (PP : path_ok (path ++ [fst p])) by (apply path_app, P).
  destruct H as [[-> [O H]]|[NX [K H]]].
  - rewrite O.
    assert (NIL : nilable (kind_at env (snd p)) = true -> member_at (unptr np (used u env (path ++ [fst p]) [] (snd p))) false JNull).
    { intros N. apply nil_null. apply (used_nil _ _ w); auto. apply kind_not_owned. intros Q. rewrite Q in N. discriminate. }
    destruct H as [[NU [ST|KD]]|[KD _]].
    + unfold is_optional. rewrite NU, orb_true_r, ST. cbn [orb andb]. rewrite andb_true_r.
      assert (SK : skips (snd p) = false).
      { unfold pointer_stays in ST. destruct (snd p) as [q|s]; [reflexivity|]. destruct (skips (Inl s)); [|reflexivity].
        rewrite andb_false_r in ST. discriminate. }
      rewrite SK. apply pointer_null.
    + assert (N : nilable (kind_at env (snd p)) = true) by (destruct KD as [-> | ->]; reflexivity).
      destruct (_ && _); [apply pointer_null|apply NIL, N].
    + destruct (_ && _); [apply pointer_null|apply NIL; rewrite KD; reflexivity].
  - specialize (IH K). rewrite (keeps_no_skip _ _ K). cbn [negb]. rewrite andb_true_r.
    destruct (is_optional _ _) eqn:OP; cbn [andb].
    + destruct (pointer_stays np (snd p)); [apply (pointer_member _ _ _ _ NX IH)|].
      destruct IH as [m M]. exists m. intros k L. destruct (M k L) as [v [E1 [E2 E3]]]. exists v. repeat split; [assumption..|].
      destruct H as [H|[H|H]]; [rewrite H; reflexivity|discriminate|].
      destruct (is_empty v); [|apply andb_false_r]. exfalso. apply H, E3. reflexivity.
    + destruct IH as [m M]. exists m. intros k L. destruct (M k L) as [v [E1 [E2 E3]]]. exists v. repeat split; [assumption..|].
      assert (Z : field_out b p = false); [|rewrite Z; reflexivity].
      unfold field_out, left_out. unfold is_optional in OP. apply orb_false_iff in OP. destruct OP as [OP ->].
      apply orb_false_iff in OP. destruct OP as [OP ->]. apply orb_false_iff in OP. destruct OP as [-> ->]. reflexivity.
Qed.

Lemma missing_at path b p w : path_ok path -> simple_ref (snd p) -> known l (snd p) ->
  incl (defs u env w (path ++ [fst p]) [] (snd p)) D ->
  existsb (String.eqb (fst p)) (b_required b) = false -> b_nullable (s_base (value env (snd p))) = false ->
  (pointer_stays np (snd p) = true \/ kind_at env (snd p) <> KStruct /\ kind_at env (snd p) <> KOther) ->
  exists m, forall k, m <= k -> field_out b p && is_empty (zero T k (field_ty path b p)) = true.
Proof.
  intros P S0 KN IN RQ NU H. rewrite (field_ty_eq path b p P S0).
  assert (PP : path_ok (path ++ [fst p])) by (apply path_app, P).
  assert (O : field_out b p = true) by (unfold field_out, left_out; rewrite NU, RQ; reflexivity).
  rewrite O. cbn [andb]. unfold is_optional. rewrite RQ. cbn [negb orb andb].
  destruct (pointer_stays np (snd p)) eqn:ST.
  - assert (SK : skips (snd p) = false).
    { unfold pointer_stays in ST. destruct (snd p) as [q|s]; [reflexivity|]. destruct (skips (Inl s)); [|reflexivity].
      rewrite andb_false_r in ST. discriminate. }
    rewrite SK. cbn [negb andb]. exists 1. intros [|k] L; [lia|]. reflexivity.
  - rewrite andb_false_r. destruct H as [H|[H1 H2]]; [discriminate|].
    destruct (used_empty (path ++ [fst p]) (snd p) w) as [m M]; auto.
    + apply kind_not_owned, H1.
    + destruct (kind_at env (snd p)) eqn:Q; try reflexivity; congruence.
    + exists m. exact M.
Qed.

(** *** Everything *)

Lemma struct_at path b ps it al ms w : path_ok path -> objectlike b = true -> ps <> [] ->
  b_has b = false -> NoDup (map fst ps) -> increasing (map fst ms) ->
  (forall p, In p ps -> good_name (fst p) /\ known l (snd p) /\ simple_ref (snd p) /\
     incl (defs u env w (path ++ [fst p]) [] (snd p)) D) ->
  (forall k x, In (k, x) ms -> exists r, In (k, r) ps /\ member_at (field_ty path b (k, r)) (field_out b (k, r)) x) ->
  (forall p, In p ps -> ~ In (fst p) (map fst ms) ->
     exists m, forall k, m <= k -> field_out b p && is_empty (zero T k (field_ty path b p)) = true) ->
  keeps_at (unptr np (body u env path (Sch b ps it None al None None))) KStruct (JObj ms).
Proof.
  intros P O NE HB ND INC G MS AB. rewrite body_eq, O. destruct ps as [|p0 ps]; [congruence|].
  rewrite HB. cbn [nonempty has_list orb elements app].
  set (pl := p0 :: ps) in *.
  match goal with |- keeps_at (unptr np (GStruct ?F None false)) _ _ => remember (unptr np (GStruct F None false)) as t eqn:ET end.
  assert (EF : exists fs, t = GStruct fs (option_map (unptr np) None) false) by (rewrite ET; eexists; reflexivity).
  destruct EF as [fs EF]. assert (V := struct_visible path b pl None false ND (fun p I => proj1 (G p I)) fs (eq_trans (eq_sym ET) EF)).
  rewrite EF. clear ET EF t.
  assert (ND' : NoDup (map fst (visible fs))).
  { rewrite V, map_map. cbn [fst]. apply increasing_nodup, by_key_increasing, ND. }
  assert (MP : exists m, forall k, m <= k -> forall q, In q ms -> exists r v, In (fst q, r) pl /\
     dec T k (field_ty path b (fst q, r)) (zero T k (field_ty path b (fst q, r))) (snd q) = Ok v /\
     enc T k (field_ty path b (fst q, r)) v = Ok (snd q) /\ field_out b (fst q, r) && is_empty v = false).
  { apply (finite (fun k q => exists r v, In (fst q, r) pl /\
     dec T k (field_ty path b (fst q, r)) (zero T k (field_ty path b (fst q, r))) (snd q) = Ok v /\
     enc T k (field_ty path b (fst q, r)) v = Ok (snd q) /\ field_out b (fst q, r) && is_empty v = false)).
    intros [k x] I. destruct (MS k x I) as [r [J [m M]]]. exists m. intros n L. destruct (M n L) as [v W]. exists r, v. auto. }
  assert (MA : exists m, forall k, m <= k -> forall p, In p pl -> ~ In (fst p) (map fst ms) ->
     field_out b p && is_empty (zero T k (field_ty path b p)) = true).
  { apply (finite (fun k p => ~ In (fst p) (map fst ms) -> field_out b p && is_empty (zero T k (field_ty path b p)) = true)).
    intros p I. destruct (in_dec string_dec (fst p) (map fst ms)) as [Y|N]; [exists 0; intros; contradiction|].
    destruct (AB p I N) as [m M]. exists m. auto. }
  destruct MP as [m1 M1], MA as [m2 M2]. exists (S (Nat.max m1 m2)). intros [|k] L; [lia|].
  specialize (M1 k ltac:(lia)). specialize (M2 k ltac:(lia)).
  cbn [zero dec enc].
  set (vs0 := map (fun f : string * (bool * gty) => (fst f, zero T k (snd (snd f)))) (visible fs)).
  assert (OLD : forall p, In p pl -> old_field vs0 (fst p) = zero T k (field_ty path b p)).
  { intros p I. unfold old_field, vs0. rewrite V, map_map. cbn [fst snd].
    rewrite (lookup_in (fst p) (zero T k (field_ty path b p))); [reflexivity| |].
    - rewrite map_map. cbn [fst]. apply increasing_nodup, by_key_increasing, ND.
    - apply in_map_iff. exists p. split; [reflexivity|apply by_key_in, I]. }
  assert (UNI : forall k' r r', In (k', r) pl -> In (k', r') pl -> r = r').
  { intros k' r r' A B. pose proof (lookup_in k' r pl ND A). pose proof (lookup_in k' r' pl ND B). congruence. }
  destruct (steps_put (fun vs m => match field_for (visible fs) (fst m) with
      | Some (k0, (_, t)) => v <- dec T k t (old_field vs k0) (snd m) ;; Ok (put k0 v vs) | None => Ok vs end)
      (fun key x v => exists r, In (key, r) pl /\ enc T k (field_ty path b (key, r)) v = Ok x /\ field_out b (key, r) && is_empty v = false)
      ms (increasing_nodup _ INC) vs0) as [vs [E [A B]]].
  { intros key x I. destruct (M1 (key, x) I) as [r [v [J [D1 [D2 D3]]]]]. cbn [fst snd] in *. exists v. split; [exists r; auto|].
    intros ws W. pose proof (OLD (key, r) J) as OJ. cbn [fst] in OJ. rewrite OJ in W. cbn [fst snd].
    assert (FF : field_for (visible fs) key = Some (key, (field_out b (key, r), field_ty path b (key, r)))).
    { unfold field_for. assert (IV : In (key, (field_out b (key, r), field_ty path b (key, r))) (visible fs)).
      { rewrite V. apply in_map_iff. exists (key, r). split; [reflexivity|apply by_key_in, J]. }
      pose proof (find_named _ _ ND' IV) as FN. cbn [fst] in FN. rewrite FN. reflexivity. }
    rewrite FF, W, D1. reflexivity. }
  exists (VStruct vs). rewrite E. cbn [bind]. split; [reflexivity|]. split; [|discriminate].
  rewrite V. rewrite (members_back (by_key pl) ms vs (field_out b) (field_ty path b) (enc T k)); [reflexivity|..].
  - apply by_key_increasing, ND.
  - exact INC.
  - intros key x I. destruct (A key x I) as [r [J _]]. exists r. apply by_key_in, J.
  - intros p x I J. rewrite by_key_in in I. destruct (A (fst p) x J) as [r [J' [C1 C2]]].
    assert (R : (fst p, r) = p). { destruct p as [k0 r0]. cbn [fst] in *. f_equal. apply (UNI k0); assumption. }
    rewrite R in *. auto.
  - intros p I J. rewrite by_key_in in I. rewrite (B (fst p) J), (OLD p I). apply (M2 p I J).
Qed.

Lemma props_in path b ps it ad al an on w p : In p ps -> objectlike b = true ->
  incl (defs_in u env w path (Sch b ps it ad al an on)) D -> (w = false -> needs_ref (snd p) = false) ->
  incl (defs u env w (path ++ [fst p]) [] (snd p)) D.
Proof.
  intros I O H N d J. destruct w.
  - apply H. rewrite defs_in_eq, O. apply in_app_iff. left.
    apply (in_by_key_flat (fun p => defs u env true (path ++ [fst p]) [] (snd p)) ps p d I J).
  - destruct (needs_nothing u env (depth_ref (snd p)) (snd p) (le_n _) (N eq_refl)) as [Z _]. rewrite Z in J. destruct J.
Qed.

Theorem body_keeps n : forall j, jsize j <= n -> forall s path inside,
  keeps env l np (Inl s) j -> path_ok path -> simple s -> kept inside s ->
  incl (defs_in u env (negb inside) path s) D ->
  keeps_at (unptr np (body u env path s)) (kind_of s) j.
Proof.
  induction n as [|n IH]; intros j SZ s path inside K P S0 KE IN; [destruct j; cbn in SZ; lia|].
  assert (U : forall x, jsize x <= n -> forall r path sfx inside, keeps env l np r x -> path_ok path -> simple_ref r ->
    kept_ref inside r -> incl (defs u env (negb inside) path sfx r) D ->
    keeps_at (unptr np (used u env path sfx r)) (kind_at env r) x).
  { intros x SX r path' sfx inside' K' P' S' KE' IN'.
    apply (used_lift (fun t => keeps_at t (kind_at env r) x) path' sfx r (negb inside')).
    - intros m t. apply keeps_id.
    - exact P'.
    - exact S'.
    - apply (keeps_known _ _ K').
    - apply (keeps_not_owned _ _ K').
    - exact IN'.
    - intros p s' SS PP H. destruct r as [q|s''].
      + destruct H as [m [-> [J ->]]]. cbn [kind_at]. rewrite (ENV m s' J).
        apply (IH x SX s' [m] false); [|exact PP|exact SS|exact (KEPT _ J)|apply component, J].
        destruct (keeps_of_ref _ _ K') as [m' [s0 [E0 [I0 K0]]]]. apply ENV in I0. rewrite <- E0, (ENV m s' J) in I0. subst s0. exact K0.
      + destruct H as [-> ->]. apply (IH x SX s'' path' inside'); auto. intros d J. apply IN'. cbn [defs]. apply in_app_iff. left. exact J. }
  destruct s as [b ps it ad al an on].
  pose proof S0 as S1. cbn [simple] in S1. destruct S1 as [-> [_ [_ [HI [HA [HP HT]]]]]]. rewrite simple_props in HP.
  inversion K as [|b0 p0 i0 a0 j0 O A KS|b0 p0 i0 a0 l0 A EN L1 L2|b0 i0 a0 ms KD INC L1 L2|b0 i0 j0 KD KA|b0 p0 i0 ms O NE HB ND GN INC PR AB]; subst.
  - apply scalar_keeps; assumption.
  - assert (O : objectlike b = false). { unfold arraylike in A. apply String.eqb_eq in A. unfold objectlike. rewrite A. reflexivity. }
    rewrite body_eq. cbn [kind_of]. rewrite O, A. cbn [orb unptr].
    rewrite defs_in_eq, O, A in IN. cbn [kept] in KE. rewrite O, A in KE.
    set (el := match it with None => GId "any" | Some r => used u env path ["Item"] r end).
    assert (B : is_byte (unptr np el) = false). { unfold el. destruct it as [r|]; [apply used_not_byte; assumption|reflexivity]. }
    assert (EL : exists m, forall k, m <= k -> forall x, In x l0 -> exists v,
       dec T k (unptr np el) (zero T k (unptr np el)) x = Ok v /\ enc T k (unptr np el) v = Ok x).
    { apply (finite (fun k x => exists v, dec T k (unptr np el) (zero T k (unptr np el)) x = Ok v /\ enc T k (unptr np el) v = Ok x)).
      intros x I. assert (Q : exists kd, keeps_at (unptr np el) kd x).
      { unfold el. destruct it as [r|].
        - exists (kind_at env r). apply (U x ltac:(pose proof (size_arr l0 x I); lia) r path ["Item"] inside (L1 r x eq_refl I)); assumption.
        - exists KAny. apply any_at, L2; auto. }
      destruct Q as [kd [m M]]. exists m. intros k Lk. destruct (M k Lk) as [v [E1 [E2 _]]]. eauto. }
    destruct EL as [m M]. exists (S m). intros [|k] Lk; [lia|]. specialize (M k ltac:(lia)).
    cbn [dec zero enc]. rewrite B. destruct (each_both _ _ l0 M) as [ys [E1 E2]]. rewrite E1. cbn [bind].
    exists (VSlice ys). split; [reflexivity|]. rewrite E2. split; [reflexivity|]. pose proof (each_length _ _ _ E1).
    destruct ys; [|discriminate]. destruct l0; [exact (fun _ => I)|discriminate].
  - cbn [kind_of] in KD. destruct (objectlike b) eqn:O.
    2:{ repeat match type of KD with context [if ?c then _ else _] => destruct c; try discriminate end. }
    rewrite body_eq. cbn [kind_of nonempty has_list orb] in *. rewrite O.
    set (el := match ad with None => GId "any" | Some r => used u env path ["AdditionalProperties"] r end).
    destruct (b_has b || match ad with Some _ => true | None => false end) eqn:HM; cbn [orb] in *.
    2:{ destruct (String.eqb (b_type b) "object"); [|discriminate]. destruct ad; [rewrite orb_true_r in HM; discriminate|].
        cbn [unptr].
        assert (EL : exists m, forall k, m <= k -> forall q, In q ms -> exists v,
          dec T k (GId "any") (zero T k (GId "any")) (snd q) = Ok v /\ enc T k (GId "any") v = Ok (snd q)).
        { apply (finite (fun k q => exists v, dec T k (GId "any") (zero T k (GId "any")) (snd q) = Ok v /\ enc T k (GId "any") v = Ok (snd q))).
          intros [k x] I. destruct (any_at x (L2 k x eq_refl I)) as [m M]. exists m. intros k' Lk. destruct (M k' Lk) as [v [E1 [E2 _]]]. eauto. }
        destruct EL as [m M]. exists (S m). intros [|k] Lk; [lia|]. specialize (M k ltac:(lia)).
        cbn [dec zero enc]. destruct (steps_map _ _ ms INC (fun k x I => M (k, x) I)) as [vs [E1 [E2 E3]]]. rewrite E1. cbn [bind].
        exists (VMap vs). split; [reflexivity|]. rewrite by_key_id by (rewrite E2; exact INC). rewrite E3. split; [reflexivity|].
        destruct vs; [|discriminate]. destruct ms; [exact (fun _ => I)|discriminate]. }
    cbn [unptr]. rewrite defs_in_eq, O in IN. cbn [kept] in KE. rewrite O in KE. destruct KE as [_ [KA _]].
    assert (EL : exists m, forall k, m <= k -> forall q, In q ms -> exists v,
       dec T k (unptr np el) (zero T k (unptr np el)) (snd q) = Ok v /\ enc T k (unptr np el) v = Ok (snd q)).
    { apply (finite (fun k q => exists v, dec T k (unptr np el) (zero T k (unptr np el)) (snd q) = Ok v /\ enc T k (unptr np el) v = Ok (snd q))).
      intros [k x] I. assert (Q : exists kd, keeps_at (unptr np el) kd x).
      { unfold el. destruct ad as [r|].
        - exists (kind_at env r). apply (U x ltac:(pose proof (size_obj ms k x I); lia) r path ["AdditionalProperties"] true (L1 r k x eq_refl I)); try assumption.
          intros d J. apply IN. rewrite !in_app_iff. right. left. exact J.
        - exists KAny. apply any_at, (L2 k); auto. }
      destruct Q as [kd [m M]]. exists m. intros k' Lk. destruct (M k' Lk) as [v [E1 [E2 _]]]. eauto. }
    destruct EL as [m M]. exists (S m). intros [|k] Lk; [lia|]. specialize (M k ltac:(lia)).
    cbn [dec zero enc]. destruct (steps_map _ _ ms INC (fun k x I => M (k, x) I)) as [vs [E1 [E2 E3]]]. rewrite E1. cbn [bind].
    exists (VMap vs). split; [reflexivity|]. rewrite by_key_id by (rewrite E2; exact INC). rewrite E3. split; [reflexivity|].
    destruct vs; [|discriminate]. destruct ms; [exact (fun _ => I)|discriminate].
  - rewrite KD. pose proof (body_form path _ S0) as F. rewrite KD in F. rewrite F. apply any_at, KA.
  - assert (KD : kind_of (Sch b ps it None None None None) = KStruct).
    { cbn [kind_of]. rewrite O. destruct ps; [congruence|reflexivity]. }
    rewrite KD. cbn [kept] in KE. rewrite O in KE. destruct KE as [KP _]. rewrite kept_props in KP.
    assert (NF : forall p, In p ps -> negb inside = false -> needs_ref (snd p) = false).
    { intros p I E. specialize (KP p I). destruct inside; [exact KP|discriminate]. }
    assert (KI : forall p, In p ps -> kept_ref inside (snd p)).
    { intros p I. specialize (KP p I). destruct inside; [|exact KP]. apply (needs_nothing u env (depth_ref (snd p)) _ (le_n _) KP). }
    apply (struct_at path b ps it None ms (negb inside)); try assumption.
    + intros p I. destruct (GN p I) as [G1 G2]. split; [exact G1|]. split; [exact G2|]. split; [apply HP, I|].
      apply (props_in path b ps it None None None None); auto.
    + intros k x I. destruct (PR k x I) as [r [J H]]. exists r. split; [exact J|].
      assert (PI := props_in path b ps it None None None None (negb inside) (k, r) J O IN (NF (k, r) J)).
      apply (property_at path b (k, r) x (negb inside)); [exact P|exact (HP _ J)|exact (proj2 (GN _ J))|exact PI| |exact H].
      intros K'. apply (U x ltac:(pose proof (size_obj ms k x I); lia) r (path ++ [k]) [] inside K'); [apply path_app, P|exact (HP _ J)|exact (KI _ J)|exact PI].
    + intros p I J. destruct p as [k r]. destruct (AB k r I J) as [A1 [A2 A3]].
      apply (missing_at path b (k, r) (negb inside)); [exact P|exact (HP _ I)|exact (proj2 (GN _ I))| |exact A1|exact A2|exact A3].
      apply (props_in path b ps it None None None None); auto.
Qed.

(** Data that a component keeps comes back unchanged. *)
Theorem component_keeps n s j : In (n, Inl s) l -> keeps env l np (Inl s) j ->
  exists m, forall k, m <= k -> through T k (GId (schemaNameToTypeName u n)) j = Ok j.
Proof.
  intros I K. destruct (OK _ I) as [L S0]. cbn [fst snd simple_ref] in *. destruct (component n s I) as [CT CI].
  destruct (keeps_id _ _ (kind_of s) j (type_upper u n L) CT
    (body_keeps (jsize j) j (le_n _) s [n] false K L S0 (KEPT _ I) CI)) as [m M].
  exists m. intros k Lk. destruct (M k Lk) as [v [E1 [E2 _]]]. unfold through. rewrite E1. exact E2.
Qed.
End Doc.
