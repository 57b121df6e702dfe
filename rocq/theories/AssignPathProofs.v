(** C75 at any depth: what [AssignableTo] reports, and where. *)
From Verif Require Import Prelude CueFrag CueSem CueProofs Assign AssignSem AssignProofs AssignFacts.
Local Open Scope string_scope.
Local Open Scope list_scope.

(** *** Specification *)

(** The kind of the values of a Go type. *)
Definition go_kind (g : gty) : option kinds :=
  match g with
  | GString => Some (k_of_type TString)
  | GBool => Some (k_of_type TBool)
  | GBytes => Some (k_of_type TBytes)
  | GInt _ _ | GBigInt => Some (k_of_type TInt)
  | GStruct _ => Some k_of_struct
  | GSlice _ | GArray _ _ => Some k_of_list
  | _ => None
  end.

(** What there is to say against a schema as a whole, leaving its parts aside. *)
Inductive complaint (nul : bool) : gty -> val -> amsg -> Prop :=
| co_kind g s k : go_kind g = Some k -> no_null (kind s) <> k -> complaint nul g s (MKind (no_null (kind s)) k)
| co_scalar g s k : scalar_go g = true -> go_kind g = Some k -> no_null (kind s) = k -> ~ rules nul g s ->
    complaint nul g s MScalar
| co_union fs ds : no_null (kind (VOr ds)) = k_of_struct -> complaint nul (GStruct fs) (VOr ds) MStructDisj
| co_closed g es : complaint nul (GSlice g) (VList es None) MClosedList
| co_slice g es u : ~ same_type es -> complaint nul (GSlice g) (VList es (Some u)) MListTypes
| co_rest g es u : same_type es -> ~ same_type (es ++ [u]) -> complaint nul (GSlice g) (VList es (Some u)) MAnyType
| co_open n g es u : complaint nul (GArray n g) (VList es (Some u)) MOpenList
| co_len n g es : List.length es <> n -> complaint nul (GArray n g) (VList es None) MLen
| co_array n g es : List.length es = n -> ~ same_type es -> complaint nul (GArray n g) (VList es None) MListTypes.

(** [fault nul g s q m]: at the path [q] of the schema [s] the Go type [g] does not
    fit, and [m] says why. *)
Inductive fault : bool -> gty -> val -> path -> amsg -> Prop :=
| fa_here nul g s m : complaint nul g s m -> fault nul g s [] m
| fa_ptr nul g s q m : fault true g s q m -> fault nul (GPtr g) s q m
| fa_missing nul fs sfs rest l : In l (map flabel sfs) -> ~ In l (map fst fs) ->
    fault nul (GStruct fs) (VStruct sfs rest) [SField l] MAbsentGo
| fa_extra nul fs sfs rest l : In l (map fst fs) -> ~ In l (map flabel sfs) ->
    fault nul (GStruct fs) (VStruct sfs rest) [SField l] MAbsentSchema
| fa_field nul fs sfs rest l g o v q m : In (l, g) fs -> In (l, o, v) sfs -> fault false g v q m ->
    fault nul (GStruct fs) (VStruct sfs rest) (SField l :: q) m
| fa_slice nul g es u q m : same_type (es ++ [u]) -> fault false g u q m ->
    fault nul (GSlice g) (VList es (Some u)) (SAny :: q) m
| fa_array nul n g es q m : List.length es = n -> es <> [] -> same_type es -> fault false g (last es VBot) q m ->
    fault nul (GArray n g) (VList es None) (SAny :: q) m.

(** Where it is reported: under its path, but for fields that only Go has, which are
    reported under their bare name. *)
Definition place (p q : path) (m : amsg) : path :=
  match m with
  | MAbsentSchema => [last q SAny]
  | _ => p ++ q
  end.

(** *** Proof *)

Definition logs (p : path) (F : path -> amsg -> Prop) (w : list (path * amsg)) : Prop :=
  forall e, In e w <-> exists q, F q (snd e) /\ fst e = place p q (snd e).

Lemma fault_extra : forall nul g s q, fault nul g s q MAbsentSchema -> q <> [].
Proof.
  intros nul g s q F. remember MAbsentSchema as m eqn:E. induction F; subst; try discriminate; auto.
  inversion H.
Qed.

Lemma place_step : forall p x q nul g s m, fault nul g s q m -> place (p ++ [x]) q m = place p (x :: q) m.
Proof.
  intros p x q nul g s m F. destruct m; cbn [place]; try (rewrite <- app_assoc; reflexivity).
  apply fault_extra in F. destruct q; [contradiction|reflexivity].
Qed.

Lemma logs_one : forall p (F : path -> amsg -> Prop) m, m <> MAbsentSchema -> F [] m -> (forall q m', F q m' -> q = [] /\ m' = m) ->
  logs p F [(p, m)].
Proof.
  intros p F m N H U [p' m']. cbn [In fst snd]. split.
  - intros [E|[]]. injection E as <- <-. exists []. split; [exact H|]. destruct m; cbn; try (symmetry; apply app_nil_r). contradiction.
  - intros [q [Hq E]]. destruct (U q m' Hq) as [-> ->]. left. f_equal. rewrite E. destruct m; cbn; try (symmetry; apply app_nil_r). contradiction.
Qed.

Lemma logs_nil : forall p (F : path -> amsg -> Prop), (forall q m, ~ F q m) -> logs p F [].
Proof. intros p F N e. split; [intros []|intros [q [H _]]; exact (N _ _ H)]. Qed.

Lemma logs_ext : forall p F G w, (forall q m, F q m <-> G q m) -> logs p F w -> logs p G w.
Proof.
  intros p F G w E L e. rewrite (L e). split; intros [q [H K]]; exists q; (split; [apply E; exact H|exact K]).
Qed.

Lemma kind_exact : forall n k v s p, kind v <> k_top -> no_null (kind v) = kind v -> kind v <> k_any ->
  no_null (kind s) <> kind v ->
  check (S n) (wrapn k v) s p = Ok [(p, MKind (no_null (kind s)) (kind v))].
Proof.
  intros n k v s p H1 H2 H3 H4. rewrite check_S. unfold check_body. rewrite kind_wrap, H2.
  replace (k_eqb (no_null (kind s)) (kind v)) with false
    by (symmetry; apply not_true_iff_false; intro C; apply k_eqb_eq in C; contradiction).
  replace (k_eqb (kind v) k_any) with false
    by (symmetry; apply not_true_iff_false; intro C; apply k_eqb_eq in C; contradiction).
  reflexivity.
Qed.

Lemma scalar_kind : forall g, scalar_go g = true -> doc_go g -> go_kind g = Some (kind (encode g)) /\
  single_scalar (kind (encode g)) = true /\ k_eqb (kind (encode g)) k_of_list = false /\
  kind (encode g) <> k_any /\ kind (encode g) <> k_top /\ no_null (kind (encode g)) = kind (encode g) /\
  is_or (encode g) = false /\ subs (encode g) (VAtom ANull) = false /\ is_null_val (encode g) = false.
Proof.
  intros g Hg Hd. destruct g; try discriminate; try contradiction; cbn; repeat split; try reflexivity; discriminate.
Qed.

Lemma scalar_fault : forall nul g s q m, scalar_go g = true -> fault nul g s q m -> q = [] /\ complaint nul g s m.
Proof. intros nul g s q m Hg F. destruct F; try discriminate Hg. auto. Qed.

(** A complaint about a scalar is determined. *)
Lemma scalar_complaint : forall nul g s m k, scalar_go g = true -> go_kind g = Some k -> complaint nul g s m ->
  m = (if k_eqb (no_null (kind s)) k then MScalar else MKind (no_null (kind s)) k).
Proof.
  intros nul g s m k Hg Hk C. destruct C as [g s k' E N|g s k' H0 E E2 R| | | | | | |]; try discriminate Hg.
  - rewrite Hk in E. injection E as <-. destruct (k_eqb (no_null (kind s)) k) eqn:EK; [|reflexivity].
    apply k_eqb_eq in EK. contradiction.
  - rewrite Hk in E. injection E as <-. rewrite E2, k_eqb_refl. reflexivity.
Qed.

(** Struct fields. *)
Lemma struct_fault : forall nul fs sfs rest q m,
  fault nul (GStruct fs) (VStruct sfs rest) q m <->
  (exists l, In l (map flabel sfs) /\ ~ In l (map fst fs) /\ q = [SField l] /\ m = MAbsentGo) \/
  (exists l, In l (map fst fs) /\ ~ In l (map flabel sfs) /\ q = [SField l] /\ m = MAbsentSchema) \/
  (exists l g o v q', In (l, g) fs /\ In (l, o, v) sfs /\ fault false g v q' m /\ q = SField l :: q').
Proof.
  intros nul fs sfs rest q m. split.
  - intros F. inversion F; subst.
    + exfalso. match goal with K : complaint _ _ _ _ |- _ => inversion K as [g s k E N|g s k E| | | | | | |] end; subst; try discriminate.
      cbn in E. injection E as <-. apply N. reflexivity.
    + left. eauto.
    + right. left. eauto.
    + right. right. eauto 10.
  - intros [[l [H1 [H2 [-> ->]]]]|[[l [H1 [H2 [-> ->]]]]|[l [g [o [v [q' [H1 [H2 [H3 ->]]]]]]]]]].
    + apply fa_missing; assumption.
    + apply fa_extra; assumption.
    + eapply fa_field; eassumption.
Qed.

Lemma check_log : forall g, doc_go g -> forall k n s p, plain s -> vsize s <= n ->
  exists w, check n (wrapn (k + nulls g) (core g)) s p = Ok w /\ logs p (fault (Nat.ltb 0 k) g s) w.
Proof.
  induction g as [g Hleaf|fs IH|g IH|m g IH|g IH|g IH] using gty_ind'; intros Hd k n s p Hp Hn;
    pose proof (check_rules _ Hd k n s p Hp Hn) as CR;
    (destruct n as [|n]; [pose proof (vsize_pos s); lia|]).
  - destruct (scalar_go g) eqn:Eg.
    + replace (core g) with (encode g) in * by (destruct g; try discriminate; reflexivity).
      replace (nulls g) with 0 in * by (destruct g; try discriminate; reflexivity). rewrite Nat.add_0_r in *.
      destruct (scalar_kind g Eg Hd) as [K1 [K2 [K3 [K4 [K5 [K6 [K7 [K8 K9]]]]]]]].
      destruct CR as [w [E R]]. exists w. split; [exact E|].
      destruct (k_eqb (no_null (kind s)) (kind (encode g))) eqn:EK.
      * apply k_eqb_eq in EK. rewrite (check_same n k (encode g) s p) in E by assumption.
        rewrite K3, K2 in E. unfold checkscalar in E.
        destruct (subs_default (if k_null (kind s) then wrapn k (encode g) else encode g) s); injection E as <-.
        -- apply logs_nil. intros q m F. apply scalar_fault in F as [-> C]; [|exact Eg].
           inversion C as [g' s' k' E1 N|g' s' k' H0 E1 E2 N| | | | | | |]; subst; try discriminate Eg.
           ++ rewrite K1 in E1. injection E1 as <-. contradiction.
           ++ apply N. apply R. reflexivity.
        -- apply logs_one; [discriminate| |].
           ++ apply fa_here. eapply co_scalar; [exact Eg|exact K1|exact EK|]. intros X. apply R in X. discriminate.
           ++ intros q m F. apply scalar_fault in F as [-> C]; [|exact Eg]. split; [reflexivity|].
              rewrite (scalar_complaint _ _ _ _ _ Eg K1 C). rewrite EK, k_eqb_refl. reflexivity.
      * assert (N : no_null (kind s) <> kind (encode g)) by (intros C; rewrite C, k_eqb_refl in EK; discriminate).
        rewrite kind_exact in E by assumption. injection E as <-.
        apply logs_one; [discriminate|apply fa_here; eapply co_kind; eassumption|].
        intros q m F. apply scalar_fault in F as [-> C]; [|exact Eg]. split; [reflexivity|].
        rewrite (scalar_complaint _ _ _ _ _ Eg K1 C), EK. reflexivity.
    + destruct g; try discriminate; try contradiction.
      cbn [core encode nulls]. rewrite check_any. exists []. split; [reflexivity|]. apply logs_nil.
      intros q m F. inversion F; subst. inversion H as [g s' k' E1 N|g s' k' H0| | | | | | |]; subst; discriminate.
  - (* structs *)
    cbn [core nulls] in *. rewrite Nat.add_0_r in *.
    cbn [doc_go] in Hd. destruct Hd as [NDg Hd]. apply (proj1 (go_doc fs)) in Hd.
    set (v := encode (GStruct fs)) in *.
    assert (Kv : kind v = k_of_struct) by reflexivity.
    destruct (k_eqb (no_null (kind s)) k_of_struct) eqn:EK.
    + apply k_eqb_eq in EK. clear CR.
      rewrite (check_same n k v s p); try reflexivity; try (rewrite Kv; discriminate); try (rewrite Kv; exact EK).
      rewrite Kv. change (k_eqb k_of_struct k_of_list) with false. change (single_scalar k_of_struct) with false.
      change (k_eqb k_of_struct k_of_struct) with true. cbn iota.
      destruct (plain_struct s Hp EK) as [[sfs [rest [-> [NDs HF]]]]|[Ho Hx]].
      * cbn [expr fst]. unfold checkstruct. cbn [fields default fst].
        change (fields v) with (Some (map (fun f : string * gty => (fst f, false, encode (snd f))) fs)).
        cbn iota beta. rewrite map_map. cbn [flabel fval fst snd].
        set (gmap := map (fun f : string * gty => (fst f, encode (snd f))) fs).
        rewrite Forall_forall in IH, Hd, HF.
        assert (CK : forall f sf p', In f fs -> In sf sfs ->
                  exists w, check n (encode (snd f)) (fval sf) p' = Ok w /\ logs p' (fault false (snd f) (fval sf)) w).
        { intros f sf p' Hf Hsf. rewrite encode_wrap.
          apply (IH f Hf (Hd f Hf) 0 n (fval sf) p' (HF sf Hsf)).
          pose proof (vsize_field sf sfs rest Hsf). lia. }
        destruct (fields_loop_spec (check n) p sfs gmap NDs) as [w [E _]].
        { intros sf gv Hsf Hgv. unfold gmap in Hgv. apply in_map_iff in Hgv. destruct Hgv as [f [Ef Hf]].
          injection Ef as E1 E2. rewrite <- E2. destruct (CK f sf (p ++ [SField (flabel sf)]) Hf Hsf) as [w [E _]]. exists w. exact E. }
        pose proof (fields_loop_log _ _ _ _ _ _ NDs E) as HL.
        rewrite E. cbn [bind fst snd]. eexists. split; [reflexivity|].
        assert (FF : forall f, In f fs -> find (fun x => String.eqb (fst f) (fst x)) gmap = Some (fst f, encode (snd f))).
        { unfold gmap. clear -NDg. induction fs as [|f fs IH]; intros g Hg; [destruct Hg|].
          cbn [map] in *. inversion NDg as [|? ? Hn ND]. subst. cbn [find fst]. destruct Hg as [<-|Hg].
          - rewrite String.eqb_refl. reflexivity.
          - destruct (String.eqb_spec (fst g) (fst f)) as [C|C].
            + exfalso. apply Hn. rewrite <- C. apply in_map. exact Hg.
            + apply IH; assumption. }
        assert (FS : forall l gv, find (fun x => String.eqb l (fst x)) gmap = Some (l, gv) ->
               exists f, In f fs /\ fst f = l /\ gv = encode (snd f)).
        { intros l gv H. apply find_fst in H. destruct H as [_ H]. unfold gmap in H. apply in_map_iff in H.
          destruct H as [f [Ef Hf]]. injection Ef as E1 E2. exists f. auto. }
        assert (FN : forall l, find (fun x => String.eqb l (fst x)) gmap = None <-> ~ In l (map fst fs)).
        { intro l. split.
          - intros H C. apply in_map_iff in C. destruct C as [f [<- Hf]]. rewrite (FF f Hf) in H. discriminate.
          - intro H. destruct (find (fun x => String.eqb l (fst x)) gmap) as [[l' gv]|] eqn:X; [|reflexivity].
            exfalso. apply find_fst in X. destruct X as [El X]. cbn in El. subst l'. apply H. unfold gmap in X.
            apply in_map_iff in X. destruct X as [f [Ef Hf]]. injection Ef as E1 E2. rewrite <- E1. apply in_map. exact Hf. }
        assert (LF : forall l, (exists gv, In (l, gv) (left_of sfs gmap)) <-> In l (map fst fs) /\ ~ In l (map flabel sfs)).
        { intros l. unfold left_of. split.
          - intros [gv H]. apply filter_In in H as [H1 H2]. cbn [fst] in H2. split.
            + unfold gmap in H1. apply in_map_iff in H1 as [f [Ef Hf]]. injection Ef as E1 E2. rewrite <- E1. apply in_map. exact Hf.
            + intros C. apply negb_true_iff in H2. rewrite <- not_true_iff_false in H2. apply H2. apply existsb_exists.
              exists l. split; [exact C|apply String.eqb_refl].
          - intros [H1 H2]. apply in_map_iff in H1 as [f [<- Hf]]. exists (encode (snd f)). apply filter_In. split.
            + unfold gmap. apply in_map_iff. exists f. auto.
            + cbn [fst]. apply negb_true_iff. apply not_true_iff_false. intros C. apply existsb_exists in C as [y [Hy C]].
              apply String.eqb_eq in C. apply H2. rewrite C. exact Hy. }
        intros [p' m']. rewrite in_app_iff, HL. cbn [fst snd]. split.
        -- intros [[f [Hf [[H1 H2]|[gv [w' [H1 [H2 H3]]]]]]]|H].
           ++ injection H2 as -> ->. exists [SField (flabel f)]. split; [|reflexivity].
              apply fa_missing; [apply in_map; exact Hf|]. apply FN. exact H1.
           ++ destruct (FS _ _ H1) as [gf [Hg [Eg ->]]]. destruct (CK gf f (p ++ [SField (flabel f)]) Hg Hf) as [w2 [E2 L2]].
              rewrite H2 in E2. injection E2 as <-. apply L2 in H3 as [q [F Eq]]. cbn [fst snd] in F, Eq.
              exists (SField (flabel f) :: q). rewrite <- (place_step _ _ _ _ _ _ _ F). split; [|exact Eq].
              destruct f as [[l o] u]. destruct gf as [l' g]. cbn in Eg. subst l'. cbn [flabel fst fval snd] in *.
              eapply fa_field; eassumption.
           ++ apply in_map_iff in H as [[l gv] [H1 H2]]. cbn [fst] in H1. injection H1 as <- <-.
              assert (X : In l (map fst fs) /\ ~ In l (map flabel sfs)) by (apply LF; eauto).
              exists [SField l]. split; [|reflexivity]. apply fa_extra; apply X.
        -- intros [q [F Eq]]. apply struct_fault in F as [[l [H1 [H2 [-> ->]]]]|[[l [H1 [H2 [-> ->]]]]|[l [g [o [u [q' [H1 [H2 [H3 ->]]]]]]]]]].
           ++ left. apply in_map_iff in H1 as [f [<- Hf]]. exists f. split; [exact Hf|]. left. split; [apply FN; exact H2|].
              cbn in Eq. rewrite Eq. reflexivity.
           ++ right. destruct (proj2 (LF l) (conj H1 H2)) as [gv Hgv]. apply in_map_iff. exists (l, gv). split; [|exact Hgv].
              cbn in Eq. rewrite Eq. reflexivity.
           ++ left. exists (l, o, u). split; [exact H2|]. right. destruct (CK (l, g) (l, o, u) (p ++ [SField l]) H1 H2) as [w2 [E2 L2]].
              cbn [fst snd fval] in E2, L2. exists (encode g), w2. cbn [flabel fst fval snd]. split; [apply (FF (l, g) H1)|].
              split; [exact E2|]. apply L2. exists q'. cbn [fst snd]. split; [exact H3|]. rewrite Eq. symmetry.
              apply (place_step _ _ _ _ _ _ _ H3).
      * rewrite Hx. exists [(p, MStructDisj)]. split; [reflexivity|]. destruct s as [| | | | |ds| |]; try discriminate Ho.
        apply logs_one; [discriminate|apply fa_here; constructor; exact EK|].
        intros q m F. inversion F; subst. split; [reflexivity|].
        inversion H as [g' s' k' E1 N|g' s' k' H0| | | | | | |]; subst; try discriminate; [|reflexivity].
        cbn in E1. injection E1 as <-. contradiction.
    + clear CR. assert (N : no_null (kind s) <> k_of_struct) by (intro C; rewrite C, k_eqb_refl in EK; discriminate).
      rewrite kind_exact; try (rewrite Kv; discriminate); try reflexivity; try (rewrite Kv; exact N).
      eexists. split; [reflexivity|]. rewrite Kv. apply logs_one; [discriminate|apply fa_here; constructor; [reflexivity|exact N]|].
      intros q m F. inversion F; subst; try (exfalso; apply N; reflexivity). split; [reflexivity|].
      inversion H as [g' s' k' E1 N'|g' s' k' H0| | | | | | |]; subst; try discriminate; [|contradiction].
      cbn in E1. injection E1 as <-. reflexivity.
  - (* slices *)
    clear CR. cbn [core nulls]. cbn [doc_go] in Hd.
    set (v := VList [] (Some (encode g))).
    assert (Kv : kind v = k_of_list) by reflexivity.
    destruct (k_eqb (no_null (kind s)) k_of_list) eqn:EK.
    + apply k_eqb_eq in EK.
      rewrite (check_same n (k + 1) v s p); try reflexivity; try (rewrite Kv; discriminate); try (rewrite Kv; exact EK).
      rewrite Kv. change (k_eqb k_of_list k_of_list) with true. cbn iota.
      destruct (plain_list s Hp EK) as [es [r [-> [Hes [Hr Hlen]]]]].
      destruct r as [u|].
      * unfold checklist. cbn [default snd expr List.length Nat.ltb Nat.leb]. unfold checklist_body.
        cbn [len_concrete v Bool.eqb negb len_subsumes List.length Nat.leb list_elems any_index].
        assert (CU : same_type (es ++ [u]) -> exists w, check n (encode g) u (p ++ [SAny]) = Ok w
                     /\ logs p (fault (Nat.ltb 0 k) (GSlice g) (VList es (Some u))) w).
        { intros ST. destruct (IH Hd 0 n u (p ++ [SAny]) (Hr u eq_refl)) as [w [E L]].
          { pose proof (vsize_rest es u). lia. }
          change (0 + nulls g) with (nulls g) in E. rewrite <- encode_wrap in E. exists w. split; [exact E|]. intros e. rewrite (L e). split.
          - intros [q [F Eq]]. exists (SAny :: q). split; [apply fa_slice; assumption|]. rewrite Eq. apply (place_step _ _ _ _ _ _ _ F).
          - intros [q [F Eq]]. inversion F; subst.
            + exfalso. inversion H as [g' s' k' E1 N|g' s' k' H0| | | | | | |]; subst; try discriminate; try contradiction.
              * cbn in E1. injection E1 as <-. apply N. reflexivity.
              * match goal with K : ~ same_type es |- _ => apply K end. clear - ST. destruct es as [|e es]; [exact I|].
                apply (same_type_snoc es e u) in ST. apply ST.
            + match goal with K : fault false g u ?q0 _ |- _ => exists q0; split; [exact K|]; rewrite Eq; symmetry; apply (place_step _ _ _ _ _ _ _ K) end. }
        assert (ONE : forall m, (m = MListTypes /\ ~ same_type es \/ m = MAnyType /\ same_type es /\ ~ same_type (es ++ [u])) ->
                  exists w, Ok [(p, m)] = Ok w /\ logs p (fault (Nat.ltb 0 k) (GSlice g) (VList es (Some u))) w).
        { intros m Hm. eexists. split; [reflexivity|]. apply logs_one.
          - destruct Hm as [[-> _]|[-> _]]; discriminate.
          - apply fa_here. destruct Hm as [[-> H]|[-> [H1 H2]]]; constructor; assumption.
          - intros q m' F. inversion F; subst.
            + split; [reflexivity|]. inversion H as [g' s' k' E1 N|g' s' k' H0| | | | | | |]; subst; try discriminate.
              * cbn in E1. injection E1 as <-. exfalso. apply N. reflexivity.
              * destruct Hm as [[-> _]|[_ [C _]]]; [reflexivity|contradiction].
              * destruct Hm as [[_ C]|[-> _]]; [contradiction|reflexivity].
            + exfalso. match goal with K : same_type (es ++ [u]) |- _ => rename K into ST end.
              destruct Hm as [[_ C]|[_ [_ C]]]; [|contradiction]. apply C. clear - ST. destruct es as [|e es]; [exact I|].
              apply (same_type_snoc es e u) in ST. apply ST. }
        destruct es as [|e es].
        -- apply CU. exact I.
        -- destruct (elems_loop VBot e es) as [[los lv]|] eqn:EL.
           ++ pose proof (elems_loop_val _ _ _ _ EL) as EV. inversion EV as [[E1 E2]]. clear EV E1.
              assert (ST : same_type (e :: es)) by (apply (elems_loop_some es VBot e); eauto).
              change (match es with [] => e | _ :: _ => last es VBot end) with (last (e :: es) VBot).
              destruct (mutual (last (e :: es) VBot) u) eqn:EM.
              ** apply CU. apply same_type_snoc. split; assumption.
              ** apply ONE. right. split; [reflexivity|]. split; [exact ST|]. intros H.
                 apply same_type_snoc in H. destruct H as [_ H]. congruence.
           ++ apply ONE. left. split; [reflexivity|]. intros H. apply (elems_loop_some es VBot e) in H.
              destruct H as [x H]. congruence.
      * unfold checklist. cbn [default snd]. unfold checklist_body. cbn [len_concrete v Bool.eqb negb].
        eexists. split; [reflexivity|]. apply logs_one; [discriminate|apply fa_here; constructor|].
        intros q m F. inversion F; subst. split; [reflexivity|].
        inversion H as [g' s' k' E1 N|g' s' k' H0| | | | | | |]; subst; try discriminate; [|reflexivity].
        cbn in E1. injection E1 as <-. exfalso. apply N. reflexivity.
    + assert (N : no_null (kind s) <> k_of_list) by (intro C; rewrite C, k_eqb_refl in EK; discriminate).
      rewrite kind_exact; try (rewrite Kv; discriminate); try reflexivity; try (rewrite Kv; exact N).
      eexists. split; [reflexivity|]. rewrite Kv. apply logs_one; [discriminate|apply fa_here; constructor; [reflexivity|exact N]|].
      intros q m F. inversion F; subst; try (exfalso; apply N; reflexivity). split; [reflexivity|].
      inversion H as [g' s' k' E1 N'|g' s' k' H0| | | | | | |]; subst; try discriminate; try (exfalso; apply N; reflexivity).
      cbn in E1. injection E1 as <-. reflexivity.
  - (* arrays *)
    clear CR. cbn [core nulls]. cbn [doc_go] in Hd. rewrite Nat.add_0_r.
    set (v := encode (GArray m g)).
    assert (Kv : kind v = k_of_list) by reflexivity.
    destruct (k_eqb (no_null (kind s)) k_of_list) eqn:EK.
    + apply k_eqb_eq in EK.
      rewrite (check_same n k v s p); try reflexivity; try (rewrite Kv; discriminate); try (rewrite Kv; exact EK).
      rewrite Kv. change (k_eqb k_of_list k_of_list) with true. cbn iota.
      destruct (plain_list s Hp EK) as [es [r [-> [Hes [Hr Hlen]]]]].
      destruct r as [u|].
      * unfold checklist. cbn [default snd expr List.length Nat.ltb Nat.leb]. unfold checklist_body.
        cbn [len_concrete v encode Bool.eqb negb].
        eexists. split; [reflexivity|]. apply logs_one; [discriminate|apply fa_here; constructor|].
        intros q m' F. inversion F; subst. split; [reflexivity|].
        inversion H as [g' s' k' E1 N|g' s' k' H0| | | | | | |]; subst; try discriminate; [|reflexivity].
        cbn in E1. injection E1 as <-. exfalso. apply N. reflexivity.
      * unfold checklist. cbn [default snd]. unfold checklist_body.
        cbn [len_concrete v encode Bool.eqb negb len_subsumes list_elems]. rewrite repeat_length.
        assert (ONE : forall m0, (m0 = MLen /\ List.length es <> m \/ m0 = MListTypes /\ List.length es = m /\ ~ same_type es) ->
                  exists w, Ok [(p, m0)] = Ok w /\ logs p (fault (Nat.ltb 0 k) (GArray m g) (VList es None)) w).
        { intros m0 Hm. eexists. split; [reflexivity|]. apply logs_one.
          - destruct Hm as [[-> _]|[-> _]]; discriminate.
          - apply fa_here. destruct Hm as [[-> H]|[-> [H1 H2]]]; constructor; assumption.
          - intros q m' F. inversion F; subst.
            + split; [reflexivity|]. inversion H as [g' s' k' E1 N|g' s' k' H0| | | | | | |]; subst; try discriminate.
              * cbn in E1. injection E1 as <-. exfalso. apply N. reflexivity.
              * destruct Hm as [[-> _]|[_ [C _]]]; [reflexivity|contradiction].
              * destruct Hm as [[_ C]|[-> _]]; [contradiction|reflexivity].
            + exfalso. destruct Hm as [[_ C]|[_ [_ C]]]; contradiction. }
        destruct (Nat.eqb_spec m (List.length es)) as [El|El]; cbn [negb].
        -- destruct es as [|e [|e2 es]].
           ++ cbn in El. subst m. cbn [repeat]. exists []. split; [reflexivity|]. apply logs_nil. intros q m F.
              inversion F; subst; [|contradiction].
              inversion H as [g' s' k' E1 N|g' s' k' H0| | | | | | |]; subst; try discriminate.
              ** cbn in E1. injection E1 as <-. apply N. reflexivity.
              ** match goal with K : List.length [] <> 0 |- _ => apply K; reflexivity end.
              ** match goal with K : ~ same_type [] |- _ => apply K; exact I end.
           ++ exfalso. apply (Hlen eq_refl). reflexivity.
           ++ cbn [elems_loop] in *.
              destruct (elems_loop VBot e (e2 :: es)) as [[los lv]|] eqn:EL.
              ** pose proof (elems_loop_val _ _ _ _ EL) as EV. inversion EV as [[E1 E2]]. clear EV E2.
                 change (match es with [] => e2 | _ :: _ => last es VBot end) with (last (e :: e2 :: es) VBot) in E1.
                 assert (ST : same_type (e :: e2 :: es)) by (apply (elems_loop_some (e2 :: es) VBot e); eauto).
                 cbn [elems_loop] in EL. rewrite EL.
                 assert (Em : exists m', m = S m') by (rewrite El; cbn; eauto). destruct Em as [m' Em].
                 assert (ER : repeat (encode g) m = encode g :: repeat (encode g) m') by (rewrite Em; reflexivity).
                 rewrite ER. clear ER m' Em.
                 rewrite E1 in *. clear E1 los.
                 change (match es with [] => e2 | _ :: _ => last es VBot end) with (last (e :: e2 :: es) VBot).
                 set (x := last (e :: e2 :: es) VBot).
                 assert (Hx : In x (e :: e2 :: es)) by (apply last_in; discriminate).
                 destruct (IH Hd 0 n x (p ++ [SAny])) as [w [E L]].
                 { rewrite Forall_forall in Hes. exact (Hes x Hx). }
                 { pose proof (vsize_elem x (e :: e2 :: es) None Hx). lia. }
                 change (0 + nulls g) with (nulls g) in E. rewrite <- encode_wrap in E. exists w. split; [exact E|]. intros e'. rewrite (L e'). split.
                 --- intros [q [F Eq]]. exists (SAny :: q). split.
                     +++ apply fa_array; [symmetry; exact El|discriminate|exact ST|exact F].
                     +++ rewrite Eq. apply (place_step _ _ _ _ _ _ _ F).
                 --- intros [q [F Eq]]. inversion F; subst.
                     +++ exfalso. match goal with K : complaint _ _ _ _ |- _ => inversion K as [g' s' k' E1 N|g' s' k' H0| | | | | | |] end; subst; try discriminate; try contradiction;
                           first [cbn in E1; injection E1 as <-; apply N; reflexivity
                                 |match goal with K : List.length _ <> _ |- _ => apply K; reflexivity end | idtac].
                     +++ match goal with K : fault false g _ ?q0 _ |- _ => exists q0; split; [exact K|]; rewrite Eq; symmetry; apply (place_step _ _ _ _ _ _ _ K) end.
              ** cbn [elems_loop] in EL. rewrite EL. apply ONE. right. split; [reflexivity|]. split; [symmetry; exact El|].
                 intros H. apply (elems_loop_some (e2 :: es) VBot e) in H. destruct H as [x H]. cbn [elems_loop] in H. congruence.
        -- apply ONE. left. split; [reflexivity|]. intros C. apply El. symmetry. exact C.
    + assert (N : no_null (kind s) <> k_of_list) by (intro C; rewrite C, k_eqb_refl in EK; discriminate).
      rewrite kind_exact; try (rewrite Kv; discriminate); try reflexivity; try (rewrite Kv; exact N).
      eexists. split; [reflexivity|]. rewrite Kv. apply logs_one; [discriminate|apply fa_here; constructor; [reflexivity|exact N]|].
      intros q m' F. inversion F; subst; try (exfalso; apply N; reflexivity). split; [reflexivity|].
      match goal with K : complaint _ _ _ _ |- _ => inversion K as [g' s' k' E1 N'|g' s' k' H0| | | | | | |] end; subst; try discriminate; try (exfalso; apply N; reflexivity).
      cbn in E1. injection E1 as <-. reflexivity.
  - contradiction.
  - cbn [core nulls]. replace (k + S (nulls g)) with (S k + nulls g) by lia.
    destruct (IH Hd (S k) (S n) s p Hp Hn) as [w [E L]]. exists w. split; [exact E|].
    refine (logs_ext _ _ _ _ _ L). intros q m. split; [apply fa_ptr|]. intros F. inversion F; subst; [|assumption].
    inversion H as [g' s' k' E1 N|g' s' k' H0| | | | | | |]; subst; discriminate.
Qed.

(** A path has one fault at most. *)
Lemma complaint_fun : forall nul g s m m', complaint nul g s m -> complaint nul g s m' -> m = m'.
Proof.
  intros nul g s m m' C C'.
  destruct C as [g s k E N|g s k Hs E E2 R|fs ds E|g es|g es u N|g es u Y N|n g es u|n g es N|n g es Y N];
    inversion C' as [g' s' k' E' N'|g' s' k' Hs' E' E2' R'|fs' ds' E'|g' es'|g' es' u' N'|g' es' u' Y' N'|n' g' es' u'|n' g' es' N'|n' g' es' Y' N'];
    subst; try reflexivity; try congruence; try contradiction; try discriminate Hs; try discriminate Hs';
    try (cbn in E; injection E as <-; contradiction); try (cbn in E'; injection E' as <-; contradiction);
    try (cbn in E; injection E as <-; exfalso; apply N; reflexivity);
    try (cbn in E'; injection E' as <-; exfalso; apply N'; reflexivity).
Qed.

Lemma fst_inj : forall (A : Type) (l : list (string * A)) x a b, NoDup (map fst l) -> In (x, a) l -> In (x, b) l -> a = b.
Proof.
  induction l as [|[y c] l IH]; intros x a b ND Ha Hb; [destruct Ha|]. cbn in ND. inversion ND as [|? ? Hn ND']. subst.
  destruct Ha as [Ha|Ha]; destruct Hb as [Hb|Hb].
  - congruence.
  - injection Ha as -> ->. exfalso. apply Hn. exact (in_map fst _ _ Hb).
  - injection Hb as -> ->. exfalso. apply Hn. exact (in_map fst _ _ Ha).
  - eapply IH; eassumption.
Qed.

Lemma label_inj : forall (l : list (string * bool * val)) x o v o' v', NoDup (map flabel l) -> In (x, o, v) l -> In (x, o', v') l -> v = v'.
Proof.
  induction l as [|[[y c] z] l IH]; intros x o v o' v' ND Ha Hb; [destruct Ha|]. cbn in ND. inversion ND as [|? ? Hn ND']. subst.
  destruct Ha as [Ha|Ha]; destruct Hb as [Hb|Hb].
  - congruence.
  - injection Ha as -> -> ->. exfalso. apply Hn. exact (in_map flabel _ _ Hb).
  - injection Hb as -> -> ->. exfalso. apply Hn. exact (in_map flabel _ _ Ha).
  - eapply IH; eassumption.
Qed.

Lemma struct_odd : forall nul fs sfs rest m, ~ complaint nul (GStruct fs) (VStruct sfs rest) m.
Proof.
  intros nul fs sfs rest m C. inversion C as [g s k E N|g s k Hs| | | | | | |]; subst; try discriminate.
  cbn in E. injection E as <-. apply N. reflexivity.
Qed.

Lemma plain_fields : forall sfs rest, plain (VStruct sfs rest) -> NoDup (map flabel sfs) /\ forall l o v, In (l, o, v) sfs -> plain v.
Proof.
  intros sfs rest H. destruct (plain_struct _ H eq_refl) as [[sfs' [rest' [E [ND F]]]]|[C _]]; [|discriminate].
  injection E as <- <-. split; [exact ND|]. rewrite Forall_forall in F. intros l o v Hin. exact (F _ Hin).
Qed.

Lemma fault_fun : forall nul g s q m, fault nul g s q m -> doc_go g -> plain s -> forall m', fault nul g s q m' -> m = m'.
Proof.
  intros nul g s q m F. induction F as [nul g s m C|nul g s q m F IH|nul fs sfs rest l H1 H2|nul fs sfs rest l H1 H2
    |nul fs sfs rest l g o v q m H1 H2 F IH|nul g es u q m ST F IH|nul n g es q m HL HN ST F IH]; intros Hd Hp m' F'.
  - inversion F' as [? ? ? ? C'|? ? ? ? ? F1| | | | |]; subst; [eapply complaint_fun; eassumption|].
    inversion C as [? ? ? E|? ? ? E| | | | | | |]; subst; discriminate.
  - inversion F' as [? ? ? ? C'|? ? ? ? ? F1| | | | |]; subst.
    + inversion C' as [? ? ? E|? ? ? E| | | | | | |]; subst; discriminate.
    + apply IH; assumption.
  - inversion F'; subst; try reflexivity; try contradiction.
    match goal with K : In (l, _) fs |- _ => exfalso; apply H2; exact (in_map fst _ _ K) end.
  - inversion F'; subst; try reflexivity; try contradiction.
    match goal with K : In (l, _, _) sfs |- _ => exfalso; apply H2; exact (in_map flabel _ _ K) end.
  - destruct (plain_fields _ _ Hp) as [NDs Hf]. cbn [doc_go] in Hd. destruct Hd as [NDg Hd]. apply (proj1 (go_doc fs)) in Hd.
    rewrite Forall_forall in Hd.
    inversion F'; subst.
    + exfalso. match goal with K : ~ In l (map fst fs) |- _ => apply K; exact (in_map fst _ _ H1) end.
    + exfalso. match goal with K : ~ In l (map flabel sfs) |- _ => apply K; exact (in_map flabel _ _ H2) end.
    + match goal with K : In (l, ?g') fs |- _ => pose proof (fst_inj _ _ _ _ _ NDg H1 K); subst g' end.
      match goal with K : In (l, ?o', ?v') sfs |- _ => pose proof (label_inj _ _ _ _ _ _ NDs H2 K); subst v' end.
      apply IH; [exact (Hd _ H1)|eapply Hf; eassumption|assumption].
  - destruct (plain_list _ Hp eq_refl) as [es' [r [E [_ [Hr _]]]]]. injection E as <- <-.
    inversion F'; subst. apply IH; [exact Hd|apply Hr; reflexivity|assumption].
  - destruct (plain_list _ Hp eq_refl) as [es' [r [E [Hes _]]]]. injection E as <- <-. rewrite Forall_forall in Hes.
    inversion F'; subst. apply IH; [exact Hd|apply Hes; apply last_in; assumption|assumption].
Qed.

Lemma put_keys : forall m e, NoDup (map fst m) -> NoDup (map fst (put m e)).
Proof.
  intros m e ND. unfold put. rewrite map_app. cbn [map].
  assert (H : NoDup (map fst (filter (fun x => negb (path_eqb (fst x) (fst e))) m))).
  { clear - ND. induction m as [|x m IH]; [constructor|]. cbn [map filter] in *. inversion ND as [|? ? Hn ND']. subst.
    destruct (negb (path_eqb (fst x) (fst e))); [|apply IH; exact ND']. cbn [map]. constructor; [|apply IH; exact ND'].
    intros C. apply Hn. apply in_map_iff in C as [y [Ey Hy]]. apply filter_In in Hy. rewrite <- Ey. apply in_map. apply Hy. }
  apply NoDup_rev in H. rewrite <- (rev_involutive (map fst (filter _ m) ++ [fst e])). apply NoDup_rev.
  rewrite rev_app_distr. cbn [rev app]. constructor; [|exact H]. rewrite <- in_rev. intros C.
  apply in_map_iff in C as [y [Ey Hy]]. apply filter_In in Hy as [_ Hy]. rewrite Ey in Hy.
  rewrite (proj2 (path_eqb_eq _ _) eq_refl) in Hy. discriminate.
Qed.

Lemma errs_keys : forall w, NoDup (map fst (errs_of w)).
Proof.
  intros w. induction w as [|x w IH] using rev_ind; [constructor|]. rewrite errs_of_app. apply put_keys. exact IH.
Qed.

Lemma reports_nested : forall sch fs T m, struct_arg T fs -> plain sch -> doc_go (GStruct fs) ->
  assignable sch T = Ok (AErrs m) ->
  (forall p msg, In (p, msg) m -> exists q, fault false (GStruct fs) sch q msg /\ p = place [] q msg)
  /\ (forall q msg, fault false (GStruct fs) sch q msg -> exists msg', In (place [] q msg, msg') m)
  /\ NoDup (map fst m)
  /\ ((forall q, fault false (GStruct fs) sch q MAbsentSchema -> List.length q = 1) ->
      forall q msg, In (q, msg) m <-> fault false (GStruct fs) sch q msg).
Proof.
  intros sch fs T m HT Hp Hd E.
  assert (ET : assignable sch T = assignable sch (GV (GStruct fs))) by (destruct HT; subst; reflexivity).
  rewrite ET in E. clear ET HT T.
  destruct (check_log (GStruct fs) Hd 0 (S (vsize sch)) sch [] Hp (le_S _ _ (le_n _))) as [w [Ew L]].
  cbn [nulls plus wrapn] in Ew. change (core (GStruct fs)) with (encode (GStruct fs)) in Ew.
  change (Nat.ltb 0 0) with false in L.
  unfold assignable, deref in E. rewrite Ew in E. cbn [bind] in E. destruct w as [|e0 w0]; [discriminate|].
  remember (e0 :: w0) as w eqn:Hw. clear Hw. injection E as <-.
  assert (A : forall p msg, In (p, msg) (errs_of w) -> exists q, fault false (GStruct fs) sch q msg /\ p = place [] q msg).
  { intros p msg H. apply errs_in in H. apply L in H. exact H. }
  assert (B : forall q msg, fault false (GStruct fs) sch q msg -> exists msg', In (place [] q msg, msg') (errs_of w)).
  { intros q msg F. apply (errs_key w _ msg). apply L. exists q. cbn. auto. }
  split; [exact A|]. split; [exact B|]. split; [apply errs_keys|].
  intros N.
  assert (PL : forall q msg, fault false (GStruct fs) sch q msg -> place [] q msg = q).
  { intros q msg F. destruct msg; try reflexivity. specialize (N q F). destruct q as [|x [|y q]]; try discriminate. reflexivity. }
  intros q msg. split.
  - intros H. destruct (A _ _ H) as [q' [F ->]]. rewrite (PL _ _ F). exact F.
  - intros F. destruct (B _ _ F) as [msg' H]. rewrite (PL _ _ F) in H. destruct (A _ _ H) as [q' [F' Eq]].
    rewrite (PL _ _ F') in Eq. subst q'. rewrite (fault_fun _ _ _ _ _ F Hd Hp _ F'). exact H.
Qed.

(** Faults are what the rules of the documentation forbid. *)
Lemma faults_rules : forall g s, doc_go g -> plain s -> rules false g s <-> forall q m, ~ fault false g s q m.
Proof.
  intros g s Hd Hp.
  destruct (check_log g Hd 0 (S (vsize s)) s [] Hp (le_S _ _ (le_n _))) as [w [Ew L]].
  destruct (check_rules g Hd 0 (S (vsize s)) s [] Hp (le_S _ _ (le_n _))) as [w' [Ew' R]].
  rewrite Ew in Ew'. injection Ew' as <-. change (Nat.ltb 0 0) with false in *. rewrite <- R. split.
  - intros -> q m F. apply (L (place [] q m, m)). exists q. auto.
  - intros N. destruct w as [|e w]; [reflexivity|]. exfalso. destruct (proj1 (L e) (or_introl eq_refl)) as [q [F _]]. exact (N _ _ F).
Qed.
