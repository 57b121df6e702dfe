(** Proofs about the version multiplexers. *)
From Verif Require Import Prelude Version VersionProofs Search SearchProofs
  ValidateErr Native Split Lineage LineageProofs WalkProofs GoLensProofs BindFacts WalkFacts
  NativeProofs Translate TranslateGoProofs TranslateCueProofs TranslateFacts Vmux Toy.
From Coq Require Import Sorting.Sorted Arith ZifyBool ZifyN ZifyNat.
Local Open Scope string_scope.
Local Open Scope list_scope.

Section M.
Context {V B T : Type}.
Variable ev : evaluator V.
Variable rm : N -> instance V -> schema V -> outcome (option (instance V)).
Variable dec : B -> outcome V.

Section L.
Variable l : lineage V.
Hypothesis Bd : bound ev l.
Hypothesis SZ : strict_from_zero l.
Let W := bound_wf ev l Bd.
Let St := sfz_strict l W SZ.

Lemma allv_loop_spec : forall d k fuel,
  d = length (all_schemas l) - k -> d <= fuel ->
  allv_loop fuel (nth_error (all_schemas l) k) =
  Ok (map (fun s => vstring (s_v s)) (skipn k (all_schemas l))).
Proof.
  induction d as [|d IH]; intros k fuel Hd Hf.
  - rewrite (proj2 (nth_error_None _ _)), skipn_all2 by lia. destruct fuel; reflexivity.
  - destruct (nth_error (all_schemas l) k) as [s|] eqn:Hk; [|apply nth_error_None in Hk; lia].
    destruct fuel as [|f]; [lia|]. cbn [allv_loop].
    destruct (neighbours ev l Bd SZ) as [NB _]. destruct (NB k s Hk) as [-> _]. cbn [bind].
    rewrite (IH (S k)) by lia. cbn [bind].
    replace (skipn k (all_schemas l)) with (s :: skipn (S k) (all_schemas l)); [reflexivity|].
    clear - Hk. revert k Hk. generalize (all_schemas l) as xs. induction xs as [|x xs IH]; intros [|k] Hk;
      cbn in Hk; try discriminate.
    + injection Hk as ->. reflexivity.
    + cbn [skipn]. apply IH. exact Hk.
Qed.

Lemma lin_schema_strict k s : nth_error (all_schemas l) k = Some s -> schemaP l (s_v s) = Ok s.
Proof.
  intros Hk. unfold schemaP.
  destruct (schema_lookup ev l Bd (s_v s)) as [Q _].
  destruct Q as [s' [E [I V1]]]; [exists s; split; [eapply nth_error_In; exact Hk|reflexivity]|].
  rewrite E. apply In_nth_error in I as [j Hj].
  pose proof (strict_idx l j k _ _ W St Hj Hk V1). subst j. congruence.
Qed.

Lemma allvstr_spec fuel : length (all_schemas l) <= fuel ->
  allvstr fuel l = Ok (String.concat ", " (map (fun s => vstring (s_v s)) (all_schemas l))).
Proof.
  intros Hf. unfold allvstr. pose proof SZ as SZ0. destruct SZ0 as [_ [s [Hs Hz]]].
  unfold first in Hs. apply all_schemas_at in Hs.
  pose proof (lin_schema_strict _ _ Hs) as E. rewrite Hz in E. change synv0 with (0, 0)%N in E.
  rewrite E. cbn [bind]. rewrite <- Hs, (allv_loop_spec (length (all_schemas l))) by lia. reflexivity.
Qed.

Lemma mux_latest_spec : exists t, nth_error (all_schemas l) (length (all_schemas l) - 1) = Some t /\
  mux_latest l = Ok t.
Proof.
  destruct (first_latest_all ev l Bd) as [f [t [_ [_ [_ [H1 [H2 _]]]]]]].
  exists t. split; [exact H1|]. unfold mux_latest. rewrite H2. cbn [bind].
  apply (lin_schema_strict _ _ H1).
Qed.

Lemma mux_loop_spec v sch n : nth_error (all_schemas l) n = Some sch ->
  (forall s, In s (all_schemas l) -> validate ev s v <> Panic) ->
  forall k s fuel, nth_error (all_schemas l) k = Some s -> k < fuel ->
  (mux_loop ev fuel sch (Some s) v = Ok None /\
     forall j t, j <= k -> nth_error (all_schemas l) j = Some t -> t <> sch ->
       exists e, validate ev t v = Err e) \/
  (exists j t i, j <= k /\ nth_error (all_schemas l) j = Some t /\ t <> sch /\
     validate ev t v = Ok i /\ mux_loop ev fuel sch (Some s) v = Ok (Some i) /\
     forall j' t', j < j' -> j' <= k -> nth_error (all_schemas l) j' = Some t' -> t' <> sch ->
       exists e, validate ev t' v = Err e).
Proof.
  intros Hn R. induction k as [|k IH]; intros s fuel Hk Hf; (destruct fuel as [|f]; [lia|]); cbn [mux_loop];
    destruct (neighbours ev l Bd SZ) as [NB _]; destruct (NB _ s Hk) as [_ Hp]; rewrite Hp; cbn [bind].
  - assert (Hz : mux_loop ev f sch None v = Ok None) by (destruct f; reflexivity).
    destruct (veqb (s_v s) (s_v sch)) eqn:Q.
    + apply veqb_spec in Q. pose proof (strict_idx l _ _ _ _ W St Hk Hn Q).
      left. split; [exact Hz|]. intros j t Hj Ht Hne. assert (j = 0) by lia. subst. congruence.
    + apply veqb_false in Q.
      assert (Hne : s <> sch) by congruence.
      destruct (validate ev s v) as [i|e| |] eqn:E.
      * right. exists 0, s, i. split; [lia|]. split; [exact Hk|]. split; [exact Hne|]. split; [exact E|].
        split; [reflexivity|]. intros; lia.
      * left. split; [exact Hz|]. intros j t Hj Ht _. assert (j = 0) by lia. subst.
        replace t with s by congruence. eauto.
      * exfalso. apply (R s); [eapply nth_error_In; exact Hk|exact E].
      * exfalso. exact (validate_no_fuel ev s v E).
  - assert (Hlen : S k < length (all_schemas l)) by (apply nth_error_Some; congruence).
    destruct (nth_error (all_schemas l) k) as [p|] eqn:Hpk; [|apply nth_error_None in Hpk; lia].
    specialize (IH p f eq_refl ltac:(lia)).
    assert (Skip : s = sch \/ (exists e, validate ev s v = Err e) ->
      forall t, nth_error (all_schemas l) (S k) = Some t -> t <> sch -> exists e, validate ev t v = Err e).
    { intros K t Ht Hne. assert (t = s) by congruence. subst t. destruct K; [contradiction|assumption]. }
    assert (Next : s = sch \/ (exists e, validate ev s v = Err e) ->
      (mux_loop ev f sch (Some p) v = Ok None /\
         forall j t, j <= S k -> nth_error (all_schemas l) j = Some t -> t <> sch ->
           exists e, validate ev t v = Err e) \/
      (exists j t i, j <= S k /\ nth_error (all_schemas l) j = Some t /\ t <> sch /\
         validate ev t v = Ok i /\ mux_loop ev f sch (Some p) v = Ok (Some i) /\
         forall j' t', j < j' -> j' <= S k -> nth_error (all_schemas l) j' = Some t' -> t' <> sch ->
           exists e, validate ev t' v = Err e)).
    { intros K. destruct IH as [[I1 I2]|[j [t [i [I1 [I2 [I3 [I4 [I5 I6]]]]]]]]].
      - left. split; [exact I1|]. intros j t Hj Ht Hne.
        destruct (Nat.eq_dec j (S k)) as [->|]; [apply (Skip K t Ht Hne)|apply (I2 j t ltac:(lia) Ht Hne)].
      - right. exists j, t, i. split; [lia|]. split; [exact I2|]. split; [exact I3|]. split; [exact I4|].
        split; [exact I5|]. intros j' t' H1 H2 Ht Hne.
        destruct (Nat.eq_dec j' (S k)) as [->|]; [apply (Skip K t' Ht Hne)|apply (I6 j' t' H1 ltac:(lia) Ht Hne)]. }
    destruct (veqb (s_v s) (s_v sch)) eqn:Q.
    + apply veqb_spec in Q. pose proof (strict_idx l _ _ _ _ W St Hk Hn Q). subst n.
      apply Next. left. congruence.
    + apply veqb_false in Q. assert (Hne : s <> sch) by congruence.
      destruct (validate ev s v) as [i|e| |] eqn:E.
      * right. exists (S k), s, i. split; [lia|]. split; [exact Hk|]. split; [exact Hne|]. split; [exact E|].
        split; [reflexivity|]. intros; lia.
      * apply Next. eauto.
      * exfalso. apply (R s); [eapply nth_error_In; exact Hk|exact E].
      * exfalso. exact (validate_no_fuel ev s v E).
Qed.
End L.

(** *** Specification of the untyped mux *)

(** What a mux for [sch] does with decoded data [v], where [tr] is translation
    to the version of [sch]. *)
Inductive mux_spec (l : lineage V) (sch : schema V) (tr : instance V -> outcome (instance V * list N))
    (v : V) : outcome (instance V * list N) -> Prop :=
| ms_target i : validate ev sch v = Ok i -> mux_spec l sch tr v (Ok (i, []))
| ms_other e s i :
    validate ev sch v = Err e ->
    In s (all_schemas l) -> s <> sch -> validate ev s v = Ok i ->
    (forall t, In t (all_schemas l) -> t <> sch -> vlt (s_v s) (s_v t) ->
       exists e', validate ev t v = Err e') ->
    mux_spec l sch tr v (tr i)
| ms_none e :
    validate ev sch v = Err e ->
    (forall t, In t (all_schemas l) -> exists e', validate ev t v = Err e') ->
    mux_spec l sch tr v
      (Err (mkErr (e_marks e)
        ("data invalid against all versions ("
         ++ String.concat ", " (map (fun s => vstring (s_v s)) (all_schemas l))
         ++ "), error against " ++ vstring (s_v sch) ++ ": " ++ e_text e)%string)).

(** The specification determines the result. *)
Lemma mux_spec_fun l sch tr v r r' :
  bound ev l -> strict_from_zero l ->
  mux_spec l sch tr v r -> mux_spec l sch tr v r' -> r = r'.
Proof.
  intros Bd SZ H H'. pose proof (bound_wf ev l Bd) as W. pose proof (sfz_strict l W SZ) as St.
  inversion H as [i E|e s i E I N1 E1 F|e E F]; subst; inversion H' as [i' E'|e' s' i' E' I' N' E1' F'|e' E' F'];
    subst; try congruence.
  - assert (s = s') as <-.
    { apply In_nth_error in I as J. destruct J as [j Hj]. apply In_nth_error in I' as J'. destruct J' as [j' Hj'].
      destruct (Nat.lt_trichotomy j j') as [K|[K|K]].
      - apply (strict_lt l j j' s s' W St Hj Hj') in K. apply vless_spec in K.
        destruct (F s' I' N' K). congruence.
      - congruence.
      - apply (strict_lt l j' j s' s W St Hj' Hj) in K. apply vless_spec in K.
        destruct (F' s I N1 K). congruence. }
    congruence.
  - destruct (F' s I). congruence.
  - destruct (F s' I'). congruence.
Qed.

Lemma untyped_spec l sch fuel :
  bound ev l -> strict_from_zero l -> In sch (all_schemas l) -> length (all_schemas l) < fuel ->
  exists mux, newUntypedMux ev rm dec fuel sch = Ok mux /\
    forall b,
      (forall e, dec b = Err e -> mux b = Err e) /\
      (forall v, dec b = Ok v -> (forall s, In s (all_schemas l) -> validate ev s v <> Panic) ->
         mux_spec l sch (fun i => translate ev rm fuel i (s_v sch)) v (mux b)).
Proof.
  intros Bd SZ Hi Hf. pose proof (bound_wf ev l Bd) as W. pose proof (sfz_strict l W SZ) as St.
  apply In_nth_error in Hi as Hn. destruct Hn as [n Hn].
  assert (Hl : s_lin sch = l).
  { apply all_schemas_at in Hn. apply sch_at_ok in Hn as [sd [_ ->]]. reflexivity. }
  unfold newUntypedMux. rewrite Hl, (allvstr_spec l Bd SZ) by lia. cbn [bind]. eexists. split; [reflexivity|].
  intros b. unfold untyped_fn. split; [intros e ->; reflexivity|]. intros v -> R.
  destruct (validate ev sch v) as [i|e| |] eqn:E.
  - apply ms_target; exact E.
  - rewrite Hl. destruct (mux_latest_spec l Bd SZ) as [t [Ht ->]]. cbn [bind].
    destruct (mux_loop_spec l Bd SZ v sch n Hn R _ t fuel Ht ltac:(lia))
      as [[-> A]|[j [s [i [Hj [Hs [Hne [Ev [-> A]]]]]]]]]; cbn [bind].
    + apply ms_none; [exact E|]. intros u Hu. apply In_nth_error in Hu as [j Hj].
      destruct (Nat.eq_dec j n) as [->|K]; [replace u with sch by congruence; eauto|].
      assert (j < length (all_schemas l)) by (apply nth_error_Some; congruence).
      apply (A j u); [lia|exact Hj|]. intros ->. apply K. apply (strict_idx l j n sch sch W St Hj Hn eq_refl).
    + apply (ms_other _ _ (fun i => translate ev rm fuel i (s_v sch)) _ e s i E); auto;
        [eapply nth_error_In; exact Hs|].
      intros u Hu Hnu Lt. apply In_nth_error in Hu as [j' Hj'].
      assert (j' < length (all_schemas l)) by (apply nth_error_Some; congruence).
      apply (A j' u); [|lia|exact Hj'|exact Hnu].
      destruct (Nat.lt_trichotomy j j') as [K|[K|K]]; [exact K|exfalso|exfalso].
      * subst j'. assert (u = s) by congruence. subst u. unfold vlt in Lt. lia.
      * apply (strict_lt l j' j u s W St Hj' Hs) in K. apply vless_spec in K. unfold vlt in *. lia.
  - exfalso. apply (R sch Hi E).
  - exfalso. exact (validate_no_fuel ev sch v E).
Qed.

(** Every success is an instance of [sch]. *)
Lemma untyped_version id fv lindef e opts l sch fuel mux b x lac :
  BindLineage ev id fv lindef e opts = Ok l -> strict_from_zero l -> well_behaved rm l ->
  In sch (all_schemas l) -> length (all_schemas l) < fuel ->
  newUntypedMux ev rm dec fuel sch = Ok mux -> mux b = Ok (x, lac) ->
  (forall v s, dec b = Ok v -> In s (all_schemas l) -> validate ev s v <> Panic) ->
  i_sch x = sch /\ i_valid x = true /\ lac = [].
Proof.
  intros Bd0 SZ WB Hi Hf E M R. pose proof (bind_bound ev _ _ _ _ _ _ Bd0) as Bd.
  pose proof (bound_wf ev l Bd) as W. pose proof (sfz_strict l W SZ) as St.
  destruct (untyped_spec l sch fuel Bd SZ Hi Hf) as [mux' [E' S]].
  assert (mux' = mux) by congruence. subst mux'. destruct (S b) as [S1 S2].
  destruct (dec b) as [v|er| |] eqn:D.
  - specialize (S2 v eq_refl (fun s => R v s eq_refl)). rewrite M in S2.
    inversion S2 as [i Ev|er s i Ev Hs Hne Es F Q|]; subst.
    + apply validate_ok in Ev as [_ ->]. auto.
    + pose proof (no_lacunas ev rm _ _ _ _ _ Q) as ->.
      apply validate_ok in Es as [_ ->]. apply In_nth_error in Hs as Hk. destruct Hk as [k Hk].
      apply In_nth_error in Hi as Hn. destruct Hn as [n Hn].
      destruct (flat_map lenses_of opts) as [|y ys] eqn:Fl.
      * pose proof (bound_cue ev _ _ _ _ _ _ Bd0 Fl) as LM. destruct fuel as [|fuel]; [lia|].
        destruct (cue_result_valid ev rm l (mkInst v "" s true) _ _ _ _ Bd LM eq_refl Hs Q) as [Q1 [Q2 [Q3 _]]].
        split; [|split; auto]. apply In_nth_error in Q2 as [j Hj].
        pose proof (strict_idx l j n _ _ W St Hj Hn Q3). subst j. congruence.
      * destruct (go_translation ev rm _ _ _ _ _ _ Bd0 SZ ltac:(congruence) WB
          (mkInst v "" s true) k n sch fuel eq_refl Hk Hn Hf) as [r [_ [_ [[y' [_ [Q1 [Q2 Q3]]]]|[y' [_ Q1]]]]]].
        -- assert (y' = x) by congruence. subst. auto.
        -- congruence.
  - rewrite (S1 er eq_refl) in M. discriminate.
  - cbn in E'. unfold newUntypedMux in E. destruct (allvstr fuel (s_lin sch)); cbn in E; try discriminate.
    injection E as <-. unfold untyped_fn in M. rewrite D in M. discriminate.
  - unfold newUntypedMux in E. destruct (allvstr fuel (s_lin sch)); cbn in E; try discriminate.
    injection E as <-. unfold untyped_fn in M. rewrite D in M. discriminate.
Qed.

(** *** The other muxes *)
Definition typed_outcome (ts : tschema V T) (r : outcome (instance V * list N))
  : outcome (tinstance V T * list N) :=
  match r with
  | Ok (x, lac) =>
      if i_valid x && schemaIs (ts_schema ts) (i_sch x) then Ok (mkTInst x ts, lac) else Panic
  | Err e => Err e
  | Panic => Panic
  | OutOfFuel => OutOfFuel
  end.

Lemma schemaIs_refl (s : schema V) : schemaIs s s = true.
Proof. unfold schemaIs. rewrite N.eqb_refl, Nat.eqb_refl. reflexivity. Qed.

Lemma typed_agrees fuel (ts : tschema V T) :
  match newUntypedMux ev rm dec fuel (ts_schema ts) with
  | Ok u => exists t, newTypedMux ev rm dec fuel ts = Ok t /\ forall b, t b = typed_outcome ts (u b)
  | Err e => newTypedMux ev rm dec fuel ts = Err e
  | Panic => newTypedMux ev rm dec fuel ts = Panic
  | OutOfFuel => newTypedMux ev rm dec fuel ts = OutOfFuel
  end.
Proof.
  unfold newUntypedMux, newTypedMux. destruct (allvstr fuel (s_lin (ts_schema ts))) as [vs|e| |]; cbn [bind]; try reflexivity.
  eexists. split; [reflexivity|]. intros b. unfold typed_fn, untyped_fn.
  destruct (dec b) as [v|e| |]; try reflexivity.
  unfold validateTyped. destruct (validate ev (ts_schema ts) v) as [i|e| |] eqn:E; try reflexivity.
  - apply validate_ok in E as [_ ->]. cbn. rewrite schemaIs_refl. reflexivity.
  - cbn [bind]. destruct (mux_latest _) as [s|e0| |]; try reflexivity. cbn [bind].
    destruct (mux_loop _ _ _ _ _) as [[i|]|e0| |]; try reflexivity. cbn [bind].
    destruct (translate ev rm fuel i _) as [[x lac]|e0| |]; try reflexivity. cbn [bind fst snd typed_outcome].
    unfold bindInstanceType. destruct (i_valid x); cbn; [|reflexivity].
    destruct (schemaIs _ _); reflexivity.
Qed.

(** On strictly increasing lineages with well-behaved lenses the typed mux
    succeeds exactly when the untyped one does, with the same instance. *)
Lemma typed_same id fv lindef e opts l (ts : tschema V T) fuel :
  BindLineage ev id fv lindef e opts = Ok l -> strict_from_zero l -> well_behaved rm l ->
  In (ts_schema ts) (all_schemas l) -> length (all_schemas l) < fuel ->
  exists u t, newUntypedMux ev rm dec fuel (ts_schema ts) = Ok u /\
    newTypedMux ev rm dec fuel ts = Ok t /\
    forall b, (forall v s, dec b = Ok v -> In s (all_schemas l) -> validate ev s v <> Panic) ->
      t b = match u b with
            | Ok (x, lac) => Ok (mkTInst x ts, lac)
            | Err er => Err er
            | Panic => Panic
            | OutOfFuel => OutOfFuel
            end.
Proof.
  intros Bd SZ WB Hi Hf.
  destruct (untyped_spec l (ts_schema ts) fuel (bind_bound ev _ _ _ _ _ _ Bd) SZ Hi Hf) as [u [Eu _]].
  pose proof (typed_agrees fuel ts) as A. rewrite Eu in A. destruct A as [t [Et A]].
  exists u, t. split; [exact Eu|]. split; [exact Et|]. intros b R. rewrite A.
  unfold typed_outcome. destruct (u b) as [[x lac]|er| |] eqn:Ub; try reflexivity.
  destruct (untyped_version _ _ _ _ _ _ _ _ _ _ _ _ Bd SZ WB Hi Hf Eu Ub R) as [-> [-> _]].
  rewrite schemaIs_refl. reflexivity.
Qed.

Lemma byte_agrees (enc : V -> outcome B) fuel sch :
  match newUntypedMux ev rm dec fuel sch with
  | Ok u => exists m, newByteMux ev rm dec enc fuel sch = Ok m /\ forall b,
      (forall x lac ob, u b = Ok (x, lac) -> i_valid x = true -> enc (i_raw x) = Ok ob ->
         m b = Ok (Some ob, lac, None)) /\
      (forall x lac er, u b = Ok (x, lac) -> i_valid x = true -> enc (i_raw x) = Err er ->
         m b = Ok (None, lac, Some er)) /\
      (forall er, u b = Err er -> m b = Ok (None, [], Some er)) /\
      (u b = Panic -> m b = Panic)
  | Err er => newByteMux ev rm dec enc fuel sch = Err er
  | Panic => newByteMux ev rm dec enc fuel sch = Panic
  | OutOfFuel => newByteMux ev rm dec enc fuel sch = OutOfFuel
  end.
Proof.
  unfold newByteMux. destruct (newUntypedMux ev rm dec fuel sch) as [u|er| |]; cbn [bind]; try reflexivity.
  eexists. split; [reflexivity|]. intros b. split; [|split; [|split]].
  - intros x lac ob -> -> ->. reflexivity.
  - intros x lac er -> -> ->. reflexivity.
  - intros er ->. reflexivity.
  - intros ->. reflexivity.
Qed.

Lemma value_agrees fuel (ts : tschema V T) :
  match newTypedMux ev rm dec fuel ts with
  | Ok t => exists m, newValueMux ev rm dec fuel ts = Ok m /\ forall b,
      (forall x lac, t b = Ok (mkTInst x ts, lac) -> i_valid x = true ->
         m b = Ok (fst (ts_decode ts (i_raw x) (ts_newfn ts)), lac,
                   snd (ts_decode ts (i_raw x) (ts_newfn ts)))) /\
      (forall er, t b = Err er -> m b = Ok (ts_newfn ts, [], Some er)) /\
      (t b = Panic -> m b = Panic)
  | Err er => newValueMux ev rm dec fuel ts = Err er
  | Panic => newValueMux ev rm dec fuel ts = Panic
  | OutOfFuel => newValueMux ev rm dec fuel ts = OutOfFuel
  end.
Proof.
  unfold newValueMux. destruct (newTypedMux ev rm dec fuel ts) as [t|er| |]; cbn [bind]; try reflexivity.
  eexists. split; [reflexivity|]. intros b. split; [|split].
  - intros x lac -> Hv. unfold tvalue. cbn. rewrite Hv. reflexivity.
  - intros er ->. reflexivity.
  - intros ->. reflexivity.
Qed.
End M.

(** A mapper answering with a foreign instance makes the typed mux panic. *)
Lemma typed_panics :
  exists (V : Type) (ev : evaluator V) rm id fv lindef e opts (l : lineage V) (ts : tschema V unit) t,
    BindLineage ev id fv lindef e opts = Ok l /\ strict_from_zero l /\
    (forall mp i s r, rm mp i s = Ok (Some r) ->
       i_valid r = true /\ validate ev (i_sch r) (i_raw r) = Ok r) /\
    In (ts_schema ts) (all_schemas l) /\
    newTypedMux ev rm (fun v : V => Ok v) 5 ts = Ok t /\ exists v, t v = Panic.
Proof.
  destruct (BindLineage toy 7 false TLinDef (Atom (tlin ss4 [])) [OImperativeLenses exact4]) as [l|e| |] eqn:E;
    try (vm_compute in E; discriminate).
  destruct (BindLineage toy 8 false TLinDef
              (Atom (tlin [(0, 0, [8]); (0, 1, [8; 9]); (1, 0, [8]); (2, 0, [8])]%N [])) [OSkipBuggyChecks])
    as [lf|e| |] eqn:Ef; try (vm_compute in Ef; discriminate).
  exists tv, toy, (foreign_mapper lf), 7%N, false, TLinDef, (Atom (tlin ss4 [])), [OImperativeLenses exact4], l.
  destruct (nth_error (all_schemas l) 2) as [s2|] eqn:E2; [|vm_compute in E; injection E as <-; discriminate].
  exists (mkTyped s2 tt (fun _ _ => (tt, None))).
  destruct (allvstr 5 (s_lin s2)) as [vs|e| |] eqn:Et.
  2-4: exfalso; vm_compute in E; injection E as <-; cbn in E2; injection E2 as <-;
       vm_compute in Et; discriminate.
  eexists. split; [exact E|].
  assert (Hin : In s2 (all_schemas l)) by (eapply nth_error_In; exact E2).
  vm_compute in E. injection E as <-. vm_compute in Ef. injection Ef as <-.
  split; [split; [cbn; solve_sorted|eexists; split; reflexivity]|].
  split.
  { intros mp i s r. unfold foreign_mapper. destruct (lin_schema _ _) as [u|e| |]; try discriminate.
    destruct (validate toy u (TDat 8)) as [r'|e| |] eqn:Ev; try discriminate. intros K. injection K as <-.
    apply validate_ok in Ev as [C ->]. split; [reflexivity|]. apply validate_ok. auto. }
  split; [exact Hin|].
  split; [unfold newTypedMux; cbn [ts_schema]; rewrite Et; reflexivity|]. exists (TDat 2).
  cbn in E2. injection E2 as <-. vm_compute. reflexivity.
Qed.

(** A lineage that does not contain 0.0 has no mux at all. *)
Lemma mux_needs_zero :
  exists (V : Type) (ev : evaluator V) (l : lineage V) s,
    bound ev l /\ StronglySorted vlt (map s_v (all_schemas l)) /\ In s (all_schemas l) /\
    forall rm (dec : V -> outcome V) fuel, newUntypedMux ev rm dec fuel s = Panic.
Proof.
  destruct (tbind (tlin [(0, 1, [1]); (0, 2, [1; 2])]%N []) []) as [l|e| |] eqn:E; try (vm_compute in E; discriminate).
  exists tv, toy, l. pose proof (tbind_bound _ _ _ E) as B.
  destruct (nth_error (all_schemas l) 1) as [s|] eqn:E1; [|vm_compute in E; injection E as <-; discriminate].
  exists s. split; [exact B|].
  assert (Hin : In s (all_schemas l)) by (eapply nth_error_In; exact E1).
  vm_compute in E. injection E as <-. split; [cbn; solve_sorted|]. split; [exact Hin|].
  cbn in E1. injection E1 as <-. intros rm dec fuel. unfold newUntypedMux.
  match goal with |- bind ?x _ = _ => assert (x = Panic) as ->; [vm_compute|]; reflexivity end.
Qed.
