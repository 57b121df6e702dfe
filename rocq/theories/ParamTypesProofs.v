(** Proofs about the types of parameters. *)
From Verif Require Import Prelude Strings Version Util GenName GenNameProofs GenType GenEnumProofs RespCase OpBodiesSpec OpBodiesProofs
  ParamTypes ParamTypesSpec.
Local Open Scope string_scope.
Local Open Scope list_scope.

Section Params.
Context {T X : Type}.
Variable u : unicode.
Variable low : N -> N.
Implicit Types p : param T X.

Lemma listed_iff s : (String.eqb s "path" || String.eqb s "header") = true <-> listed s.
Proof. unfold listed. rewrite orb_true_iff, !String.eqb_eq. reflexivity. Qed.
Lemma formlike_iff s : (String.eqb s "query" || String.eqb s "cookie") = true <-> formlike s.
Proof. unfold formlike. rewrite orb_true_iff, !String.eqb_eq. reflexivity. Qed.
Lemma not_both s : listed s -> ~ formlike s.
Proof. intros [-> | ->] [H|H]; discriminate. Qed.

Lemma placed {A} (a b c : A) s :
  (listed s -> (if String.eqb s "path" || String.eqb s "header" then a else if String.eqb s "query" || String.eqb s "cookie" then b else c) = a) /\
  (formlike s -> (if String.eqb s "path" || String.eqb s "header" then a else if String.eqb s "query" || String.eqb s "cookie" then b else c) = b) /\
  (~ listed s -> ~ formlike s -> (if String.eqb s "path" || String.eqb s "header" then a else if String.eqb s "query" || String.eqb s "cookie" then b else c) = c).
Proof.
  split; [|split].
  - intros H. apply listed_iff in H. rewrite H. reflexivity.
  - intros [-> | ->]; reflexivity.
  - intros H1 H2. rewrite <- listed_iff in H1. rewrite <- formlike_iff in H2.
    destruct (String.eqb s "path" || String.eqb s "header"); [exfalso; apply H1; reflexivity|].
    destruct (String.eqb s "query" || String.eqb s "cookie"); [exfalso; apply H2; reflexivity|reflexivity].
Qed.

Lemma style_spec p :
  (pa_style p <> "" -> style p = Ok (pa_style p)) /\
  (pa_style p = "" -> (listed (pa_in p) -> style p = Ok "simple") /\ (formlike (pa_in p) -> style p = Ok "form") /\
     (~ listed (pa_in p) -> ~ formlike (pa_in p) -> style p = Panic)).
Proof.
  unfold style. split.
  - intros H. destruct (String.eqb_spec (pa_style p) ""); [contradiction|reflexivity].
  - intros ->. cbn [String.eqb]. apply placed.
Qed.
Lemma explode_spec p :
  (forall b, pa_explode p = Some b -> explode p = Ok b) /\
  (pa_explode p = None -> (listed (pa_in p) -> explode p = Ok false) /\ (formlike (pa_in p) -> explode p = Ok true) /\
     (~ listed (pa_in p) -> ~ formlike (pa_in p) -> explode p = Panic)).
Proof.
  unfold explode. split; [intros b ->; reflexivity|]. intros ->. apply placed.
Qed.
Lemma styles p : 
  ((pa_style p <> "" -> style p = Ok (pa_style p)) /\
   (pa_style p = "" -> (listed (pa_in p) -> style p = Ok "simple") /\ (formlike (pa_in p) -> style p = Ok "form") /\
      (~ listed (pa_in p) -> ~ formlike (pa_in p) -> style p = Panic))) /\
  ((forall b, pa_explode p = Some b -> explode p = Ok b) /\
   (pa_explode p = None -> (listed (pa_in p) -> explode p = Ok false) /\ (formlike (pa_in p) -> explode p = Ok true) /\
      (~ listed (pa_in p) -> ~ formlike (pa_in p) -> explode p = Panic))).
Proof. split; [apply style_spec|apply explode_spec]. Qed.

(** A parameter whose style is known. *)
Definition known p : Prop := pa_style p <> "" \/ listed (pa_in p) \/ formlike (pa_in p).

Lemma style_known p : known p -> exists st, style p = Ok st /\
  (String.eqb st "form" = true <-> pa_style p = "form" \/ (pa_style p = "" /\ formlike (pa_in p))).
Proof.
  intros K. destruct (style_spec p) as [S1 S2]. destruct (String.eqb_spec (pa_style p) "") as [E|N].
  - destruct (S2 E) as (L & F & _). destruct K as [K|[K|K]]; [contradiction| |].
    + exists "simple". split; [exact (L K)|]. split; [discriminate|]. intros [H|[_ H]]; [congruence|].
      exfalso. exact (not_both _ K H).
    + exists "form". split; [exact (F K)|]. split; [intros _; right; auto|reflexivity].
  - exists (pa_style p). split; [exact (S1 N)|]. rewrite String.eqb_eq. split; [auto|]. intros [H|[H _]]; [exact H|contradiction].
Qed.
Lemma style_unknown p : ~ known p -> style p = Panic.
Proof.
  intros K. destruct (style_spec p) as [S1 S2]. destruct (String.eqb_spec (pa_style p) "") as [E|N].
  - apply S2; [exact E| |]; intros H; apply K; unfold known; auto.
  - exfalso. apply K. left. exact N.
Qed.

Lemma one_field tn p : known p -> exists f,
  param_field u tn p = Ok (if ps_has (pa_schema p) then [((tn ++ "_" ++ goName u p)%string, TParam (pa_schema p))] else [], f) /\
  field_for u tn p f.
Proof.
  intros K. destruct (style_known p K) as (st & S1 & S2). unfold param_field. rewrite S1. cbn [bind].
  eexists. split; [reflexivity|]. unfold field_for. cbn [pr_description pr_json pr_required pr_go pr_form pr_schema].
  repeat (split; [reflexivity|]). split; [exact S2|].
  destruct (ps_has (pa_schema p)) eqn:H; cbn [ps_has ps_types ps_rest ps_ref].
  - repeat (split; [reflexivity|]). split; [discriminate|reflexivity].
  - split; [exact H|]. repeat (split; [reflexivity|]). discriminate.
Qed.
Lemma all_fields tn ps : (forall p, In p ps -> known p) -> exists own fs,
  param_fields u tn ps = Ok (own, fs) /\ own_types u tn ps own /\ Forall2 (field_for u tn) ps fs.
Proof.
  induction ps as [|p ps IH]; intros K.
  - exists [], []. split; [reflexivity|]. split; constructor.
  - destruct IH as (own & fs & E & O & F); [intros q I; apply K; right; exact I|].
    destruct (one_field tn p (K p (or_introl eq_refl))) as (f & E1 & F1).
    cbn [param_fields]. rewrite E1. cbn [bind]. rewrite E. cbn [bind fst snd].
    eexists _, (f :: fs). split; [reflexivity|]. split; [|constructor; assumption].
    destruct (ps_has (pa_schema p)) eqn:H; cbn [app]; [apply own_some|apply own_none]; assumption.
Qed.

Lemma params_types opId d query header cookie :
  (forall p, In p (query ++ header ++ cookie) -> known p) -> exists own fs,
  generateParamsTypes u opId d query header cookie = Ok (own ++ [((opId ++ "Params")%string, TStruct d fs)]) /\
  own_types u (opId ++ "Params") (query ++ header ++ cookie) own /\
  Forall2 (field_for u (opId ++ "Params")) (query ++ header ++ cookie) fs.
Proof.
  intros K. destruct (all_fields (opId ++ "Params") _ K) as (own & fs & E & O & F). exists own, fs.
  unfold generateParamsTypes. rewrite E. cbn [bind fst snd]. auto.
Qed.
Lemma fields_panic tn ps p : In p ps -> ~ known p -> param_fields u tn ps = Panic.
Proof.
  induction ps as [|q ps IH]; intros I K; [destruct I|]. cbn [param_fields].
  assert (D : known q \/ ~ known q).
  { unfold known. destruct (String.eqb_spec (pa_style q) ""); [|left; left; assumption].
    destruct (String.eqb (pa_in q) "path" || String.eqb (pa_in q) "header") eqn:E1;
      [left; right; left; apply listed_iff; exact E1|].
    destruct (String.eqb (pa_in q) "query" || String.eqb (pa_in q) "cookie") eqn:E2;
      [left; right; right; apply formlike_iff; exact E2|].
    right. rewrite <- listed_iff, <- formlike_iff, E1, E2. intros [H|[H|H]]; [contradiction|discriminate|discriminate]. }
  destruct D as [D|D].
  - destruct (one_field tn q D) as (f & E & _). rewrite E. cbn [bind].
    destruct I as [-> | I]; [contradiction|]. rewrite (IH I K). reflexivity.
  - unfold param_field. rewrite (style_unknown q D). reflexivity.
Qed.
Lemma params_panic opId d query header cookie p : In p (query ++ header ++ cookie) -> ~ known p ->
  generateParamsTypes u opId d query header cookie = Panic.
Proof. intros I K. unfold generateParamsTypes. rewrite (fields_panic _ _ p I K). reflexivity. Qed.

Lemma type_defs opId d query header cookie path bodies :
  let mine := flat_map (fun p => ps_types (pa_schema p)) in
  let brought := mine query ++ mine header ++ mine cookie ++ mine path ++ List.concat bodies in
  (query = [] -> header = [] -> cookie = [] -> generateTypeDefs u opId d query header cookie path bodies = Ok ([], brought)) /\
  (forall p ts, In p query \/ In p header \/ In p cookie -> generateParamsTypes u opId d query header cookie = Ok ts ->
     generateTypeDefs u opId d query header cookie path bodies = Ok (ts, brought)).
Proof.
  cbv zeta. split.
  - intros -> -> ->. reflexivity.
  - intros p ts I E. unfold generateTypeDefs. rewrite !flat_map_app, <- !app_assoc.
    destruct (query ++ header ++ cookie) as [|a l] eqn:Q.
    + exfalso. assert (In p (query ++ header ++ cookie)) as H by (rewrite !in_app_iff; tauto). rewrite Q in H. destruct H.
    + rewrite E. reflexivity.
Qed.

(** Names. *)
Lemma field_name tn p f : field_for u tn p f -> (forall n, pa_go p <> Some (Some n)) -> fieldName u f = goName u p.
Proof.
  intros (_ & J & _ & G & _) N. unfold fieldName, goName. rewrite G, J.
  destruct (pa_go p) as [[n|]|]; [exfalso; exact (N n eq_refl)|reflexivity|reflexivity].
Qed.
Lemma field_given tn p f n : field_for u tn p f -> pa_go p = Some (Some n) ->
  fieldName u f = n /\ goName u p = schemaNameToTypeName u n.
Proof. intros (_ & J & _ & G & _) N. unfold fieldName, goName. rewrite G, N. auto. Qed.

Lemma forall2_in {A B} (R : A -> B -> Prop) l m x : Forall2 R l m -> In x l -> exists y, In y m /\ R x y.
Proof.
  induction 1 as [|a b l m H F IH]; intros I; [destruct I|]. destruct I as [-> | I].
  - exists b. split; [left; reflexivity|exact H].
  - destruct (IH I) as (y & Y1 & Y2). exists y. split; [right; exact Y1|exact Y2].
Qed.
Lemma same_twice opId d query header cookie p q :
  (forall p, In p (query ++ header ++ cookie) -> known p) ->
  In p query -> In q (header ++ cookie) -> pa_name p = pa_name q -> pa_go p = None -> pa_go q = None ->
  exists own fs, generateParamsTypes u opId d query header cookie = Ok (own ++ [((opId ++ "Params")%string, TStruct d fs)]) /\
    ~ NoDup (map (fieldName u) fs).
Proof.
  intros K P Q N GP GQ. destruct (params_types opId d query header cookie K) as (own & fs & E & _ & F).
  exists own, fs. split; [exact E|]. apply Forall2_app_inv_l in F. destruct F as (f1 & f2 & F1 & F2 & ->).
  destruct (forall2_in _ _ _ p F1 P) as (x & X1 & X2). destruct (forall2_in _ _ _ q F2 Q) as (y & Y1 & Y2).
  assert (S1 : fieldName u x = fieldName u y).
  { rewrite (field_name _ p x X2), (field_name _ q y Y2) by congruence. unfold goName. rewrite GP, GQ, N. reflexivity. }
  rewrite map_app. intros D.
  apply (List.in_map (fieldName u)) in X1. apply (List.in_map (fieldName u)) in Y1. rewrite S1 in X1.
  clear - D X1 Y1. induction (map (fieldName u) f1) as [|a l IH]; [destruct X1|].
  cbn in D. inversion D as [|? ? D1 D2]; subst. destruct X1 as [-> | X1]; [|exact (IH X1 D2)].
  apply D1. apply in_or_app. right. exact Y1.
Qed.

(** Variables. *)
Lemma keyword_in s : isGoKeyword s = true <-> In s go_keywords.
Proof.
  unfold isGoKeyword. rewrite existsb_exists. split.
  - intros (k & I & E). apply String.eqb_eq in E. subst k. cbn in I. cbn. tauto.
  - intros I. exists s. split; [|apply String.eqb_refl]. cbn in I. cbn. tauto.
Qed.
Lemma lower_word c d t : small c d -> all alnum t = true -> lowercaseFirst low (String c t) = String d t.
Proof.
  intros [U E] A. assert (I : all is_ascii (String c t) = true).
  { apply (all_impl alnum); [apply alnum_ascii|]. cbn [all]. rewrite A. unfold alnum. rewrite U. reflexivity. }
  unfold lowercaseFirst. rewrite runes_ascii by exact I. cbn [codes].
  unfold upperc in U. unfold to_lower. pose proof U as W. unfold a_upper in W. apply within_iff in W.
  replace (N_of_ascii c <? 128)%N with true by (symmetry; apply N.ltb_lt; lia). rewrite U, <- E.
  change (encode (codes (String d t)) = String d t). apply encode_codes. cbn [all] in I |- *.
  apply andb_true_iff in I. destruct I as [_ I]. rewrite I, andb_true_r. unfold is_ascii. apply N.ltb_lt. lia.
Qed.
Lemma upper_back c d t : small c d -> all alnum t = true -> uppercaseFirst u (String d t) = String c t.
Proof.
  intros [U E] A. unfold upperc, a_upper in U. apply within_iff in U.
  assert (L : lowerc d = true) by (unfold lowerc, a_lower; rewrite E; apply within_iff; lia).
  assert (I : all is_ascii (String d t) = true).
  { apply (all_impl alnum); [apply alnum_ascii|]. cbn [all]. rewrite A. unfold alnum. rewrite L, orb_true_r. reflexivity. }
  unfold uppercaseFirst. rewrite runes_ascii by exact I. cbn [codes].
  unfold to_upper. rewrite E. replace (N_of_ascii c + 32 <? 128)%N with true by (symmetry; apply N.ltb_lt; lia).
  replace (a_lower (N_of_ascii c + 32)) with true by (symmetry; unfold a_lower; apply within_iff; lia).
  replace (N_of_ascii c + 32 - 32)%N with (N_of_ascii c) by lia.
  change (encode (codes (String c t)) = String c t). apply encode_codes. cbn [all] in I |- *.
  apply andb_true_iff in I. destruct I as [_ I]. rewrite I, andb_true_r. unfold is_ascii. apply N.ltb_lt. lia.
Qed.
Lemma first_small d t : lowerc d = true -> all alnum t = true ->
  exists rest, runes (String d t) = N_of_ascii d :: rest /\ is_number u (N_of_ascii d) = false.
Proof.
  intros L A. unfold lowerc, a_lower in L. apply within_iff in L.
  rewrite runes_ascii.
  - eexists. split; [reflexivity|]. unfold is_number. replace (N_of_ascii d <? 128)%N with true by (symmetry; apply N.ltb_lt; lia).
    apply not_true_is_false. intros H. unfold a_digit in H. apply within_iff in H. lia.
  - apply (all_impl alnum); [apply alnum_ascii|]. cbn [all]. rewrite A. unfold alnum, lowerc, a_lower.
    replace (within 97 122 (N_of_ascii d)) with true by (symmetry; apply within_iff; lia). rewrite orb_true_r. reflexivity.
Qed.
Lemma variable_name p c d t : goName u p = String c t -> small c d -> all alnum t = true ->
  (~ In (String d t) go_keywords -> goVariableName u low p = Ok (String d t) /\ variable (String d t)) /\
  (In (String d t) go_keywords -> goVariableName u low p = Ok (String "p" (String c t)) /\ variable (String "p" (String c t))).
Proof.
  intros G D A. unfold goVariableName. rewrite G, (lower_word c d t D A).
  assert (L : lowerc d = true).
  { destruct D as [U E]. unfold upperc, a_upper in U. apply within_iff in U. unfold lowerc, a_lower. rewrite E. apply within_iff. lia. }
  split; intros K.
  - destruct (isGoKeyword (String d t)) eqn:Q; [exfalso; apply K, keyword_in, Q|].
    destruct (first_small d t L A) as (rest & R & N). rewrite R, N. split; [reflexivity|].
    split; [exists d, t; auto|exact K].
  - apply keyword_in in K. rewrite K, (upper_back c d t D A).
    assert (A2 : all alnum (String c t) = true) by (cbn [all]; rewrite A; unfold alnum; rewrite (proj1 D); reflexivity).
    change ("p" ++ String c t)%string with (String "p" (String c t)).
    destruct (first_small "p" (String c t) eq_refl A2) as (rest & R & N). rewrite R, N. split; [reflexivity|].
    split; [exists "p"%char, (String c t); auto|].
    intros I. cbn in I. destruct D as [U _].
    repeat (destruct I as [I|I]; [try discriminate I; injection I as I _; subst c; discriminate U|]). destruct I.
Qed.

(** Kinds. *)
Lemma kinds p :
  (isJson p = true <-> exists c, pa_contents p = [c] /\ json_like c) /\
  (isPassThrough p = true <-> pa_contents p <> [] /\ ~ exists c, pa_contents p = [c] /\ json_like c).
Proof.
  assert (J : isJson p = true <-> exists c, pa_contents p = [c] /\ json_like c).
  { unfold isJson. destruct (pa_contents p) as [|c [|e l]].
    - split; [discriminate|]. intros (c & H & _). discriminate.
    - rewrite json_iff. split; [intros H; exists c; auto|]. intros (c' & [= <-] & H). exact H.
    - split; [discriminate|]. intros (c' & H & _). discriminate. }
  split; [exact J|]. rewrite <- J. unfold isPassThrough, isJson. destruct (pa_contents p) as [|c [|e l]].
  - split; [discriminate|]. intros [H _]. congruence.
  - rewrite negb_true_iff. destruct (isMediaTypeJson c); split; try discriminate.
    + intros [_ H]. congruence.
    + intros _. split; discriminate.
    + reflexivity.
  - split; [intros _; split; discriminate|reflexivity].
Qed.
End Params.
