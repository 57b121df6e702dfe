(** Closing lemmas for C46, C47 and C75. *)
From Verif Require Import Prelude CueFrag CueSem CueProofs Assign AssignSem AssignProofs.
Local Open Scope string_scope.
Local Open Scope list_scope.

(** *** C46 *)

Lemma put_nonempty : forall m e, put m e <> [].
Proof. intros m e. unfold put. intro H. apply app_eq_nil in H. destruct H. discriminate. Qed.

Lemma errs_of_nil : forall w, errs_of w = [] <-> w = [].
Proof.
  intro w. split; [|intros ->; reflexivity]. unfold errs_of.
  destruct w as [|e w] using rev_ind; [reflexivity|]. rewrite fold_left_app. cbn. intro H.
  exfalso. apply (put_nonempty _ _ H).
Qed.

(** What the argument of [AssignableTo] must be: a struct, or a pointer to one. *)
Definition struct_arg (T : gvalue) (fs : list (string * gty)) : Prop :=
  T = GV (GStruct fs) \/ T = GV (GPtr (GStruct fs)).

Lemma exact_rules : forall sch T fs, struct_arg T fs -> plain sch -> doc_go (GStruct fs) ->
  (assignable sch T = Ok ANil <-> rules false (GStruct fs) sch)
  /\ (~ rules false (GStruct fs) sch -> exists m, m <> [] /\ assignable sch T = Ok (AErrs m)).
Proof.
  intros sch T fs HT Hp Hd.
  assert (E : assignable sch T = assignable sch (GV (GStruct fs))) by (destruct HT; subst; reflexivity).
  rewrite E. clear E HT T.
  pose proof (check_rules (GStruct fs) Hd 0 (S (vsize sch)) sch [] Hp (le_S _ _ (le_n _))) as [w [Ew Hw]].
  cbn [nulls plus wrapn] in Ew. change (core (GStruct fs)) with (encode (GStruct fs)) in Ew.
  change (Nat.ltb 0 0) with false in Hw.
  unfold assignable, deref. rewrite Ew. cbn [bind]. split.
  - rewrite <- Hw. destruct w; split; intro H; try reflexivity; discriminate H.
  - intro N. destruct w as [|e w]; [exfalso; apply N; apply Hw; reflexivity|].
    exists (errs_of (e :: w)). split; [|reflexivity]. intro C. apply (proj1 (errs_of_nil _)) in C. discriminate C.
Qed.

Lemma not_struct : forall sch T,
  (exists fs, struct_arg T fs)
  \/ ((exists g, T = GV (GPtr (GPtr g))) /\ assignable sch T = Ok APointerDepth)
  \/ assignable sch T = Ok ANotStruct.
Proof.
  intros sch T. destruct T as [[| | | | | | |fs| | | |g]|g|]; try (right; right; reflexivity).
  - left. exists fs. left. reflexivity.
  - destruct g as [| | | | | | |fs| | | |g]; try (right; right; reflexivity).
    + left. exists fs. right. reflexivity.
    + right. left. split; [eauto|reflexivity].
Qed.

(** *** Termination *)

Lemma fields_loop_fuel : forall chk p sfs gmap,
  (forall f gv q, In f sfs -> chk gv (fval f) q <> OutOfFuel) ->
  fields_loop chk p sfs gmap <> OutOfFuel.
Proof.
  intros chk p sfs. induction sfs as [|f sfs IH]; intros gmap H; [discriminate|]. cbn [fields_loop].
  destruct (find (fun x => String.eqb (flabel f) (fst x)) gmap) as [[l gv]|].
  - pose proof (H f gv (p ++ [SField (flabel f)]) (or_introl eq_refl)) as H0.
    destruct (chk gv (fval f) (p ++ [SField (flabel f)])); try discriminate; [|contradiction]. cbn [bind].
    pose proof (IH (filter (fun x => negb (String.eqb (flabel f) (fst x))) gmap)
                  (fun g gv q Hg => H g gv q (or_intror Hg))) as H1.
    destruct (fields_loop chk p sfs (filter (fun x => negb (String.eqb (flabel f) (fst x))) gmap)); try discriminate. contradiction.
  - pose proof (IH gmap (fun g gv q Hg => H g gv q (or_intror Hg))) as H1.
    destruct (fields_loop chk p sfs gmap); try discriminate. contradiction.
Qed.

(** What the list check looks at is smaller than the schema. *)
Lemma elems_loop_from : forall es los lv x, elems_loop los lv es = Some x ->
  fst x = los \/ In (fst x) es.
Proof.
  induction es as [|e es IH]; intros los lv x H.
  - inversion H. left. reflexivity.
  - cbn in H. destruct (mutual lv e); [|discriminate]. apply IH in H. destruct H as [H|H]; right; [left|right]; auto.
Qed.

Lemma checklist_body_fuel : forall n g s p, 2 <= S n -> vsize s <= S n ->
  (forall g s p, vsize s <= n -> check n g s p <> OutOfFuel) ->
  checklist_body (check n) g s p <> OutOfFuel.
Proof.
  intros n g s p H2 Hs IH. unfold checklist_body.
  destruct (negb (Bool.eqb (len_concrete g) (len_concrete s))); [destruct (len_concrete s); discriminate|].
  destruct (negb (len_subsumes g s)); [discriminate|].
  assert (HB : vsize VBot <= n) by (cbn; lia).
  assert (HE : forall e, In e (list_elems s) -> vsize e <= n).
  { intros e He. destruct s; try destruct He. pose proof (vsize_elem e es rest He). lia. }
  assert (HU : vsize (match any_index s with Some u => u | None => VBot end) <= n).
  { destruct s; try exact HB. destruct rest as [u|]; [|exact HB]. cbn [any_index].
    pose proof (vsize_rest es u). lia. }
  destruct (list_elems s) as [|e es].
  - destruct (len_concrete g).
    + destruct (list_elems g); [discriminate|]. apply IH. exact HB.
    + apply IH. exact HU.
  - destruct (elems_loop VBot e es) as [[los lv]|] eqn:EL; [|discriminate].
    destruct (len_concrete g).
    + destruct (list_elems g); [discriminate|]. apply IH.
      apply elems_loop_from in EL. cbn in EL. destruct EL as [->|EL]; [exact HB|]. apply HE. right. exact EL.
    + destruct (mutual lv _); [|discriminate]. apply IH. exact HU.
Qed.

Lemma vsize_disj : forall d ds, In d ds -> vsize (snd d) < vsize (VOr ds).
Proof.
  intros d ds H. cbn [vsize]. pose proof (list_sum_in _ _ (in_map (fun d : bool * val => vsize (snd d)) _ _ H)). lia.
Qed.

Lemma expr_size : forall s e, In e (snd (expr s)) -> vsize e <= vsize s.
Proof.
  intros s e H. destruct s; try (destruct H as [<-|[]]; lia). cbn [expr snd] in H.
  unfold expr_kept in H. apply in_flat_map in H. destruct H as [d [Hd H]].
  destruct (fst d && _); [destruct H|]. destruct H as [<-|[]]. pose proof (vsize_disj d ds Hd). lia.
Qed.

Lemma check_fuel : forall n g s p, vsize s <= n -> check n g s p <> OutOfFuel.
Proof.
  induction n as [|n IH]; intros g s p Hs; [pose proof (vsize_pos s); lia|].
  rewrite check_S. unfold check_body.
  destruct (negb (k_eqb (no_null (kind s)) (no_null (kind g))) && negb (k_eqb (no_null (kind g)) k_any)); [discriminate|].
  destruct (k_eqb (no_null (kind g)) k_any); [discriminate|].
  destruct (k_eqb (no_null (kind s)) k_of_list) eqn:EL.
  - apply k_eqb_eq in EL. unfold checklist.
    assert (H2 : 2 <= S n \/ s = VList [] None).
    { destruct s as [| |a|t|lo hi|ds|es r|fs r]; try discriminate; try (destruct a; discriminate); try (destruct t; discriminate).
      - left. destruct ds as [|d ds]; [discriminate|]. cbn [vsize map list_sum fold_right] in Hs.
        pose proof (vsize_pos (snd d)). lia.
      - destruct es as [|e es]; [destruct r as [u|]; [left|right; reflexivity]|left]; cbn [vsize map list_sum fold_right] in Hs;
          [pose proof (vsize_pos u)|pose proof (vsize_pos e)]; lia. }
    destruct H2 as [H2|E].
    + destruct (snd (default s)).
      * destruct (Nat.ltb 2 (List.length (snd (expr s)))); [discriminate|].
        destruct (snd (expr s)) as [|e t] eqn:EE; [discriminate|].
        apply checklist_body_fuel; [exact H2| |exact IH].
        pose proof (expr_size s e). rewrite EE in H. specialize (H (or_introl eq_refl)). lia.
      * apply checklist_body_fuel; assumption.
    + subst s. cbn [default snd]. unfold checklist_body. cbn [len_concrete list_elems].
      destruct (len_concrete (stripLeadNull g)) eqn:C; cbn [Bool.eqb negb]; [|discriminate].
      destruct (stripLeadNull g) as [| |a|t|lo hi|ds|es r|fs r]; try (cbn; discriminate).
      destruct r; [discriminate|]. destruct es; cbn; discriminate.
  - destruct (single_scalar (no_null (kind s))); [unfold checkscalar; destruct (subs_default _ s); discriminate|].
    destruct (k_eqb (no_null (kind s)) k_of_struct).
    + destruct (fst (expr s)); [discriminate|]. unfold checkstruct.
      destruct (fields s) as [ss|] eqn:EF; [|discriminate]. destruct (fields (stripLeadNull g)) as [gs|]; [|discriminate].
      assert (HF : forall f, In f ss -> vsize (fval f) <= n).
      { intros f Hf. unfold fields in EF.
        assert (D : vsize (fst (default s)) <= vsize s).
        { destruct s as [| |a|t|lo hi|ds|es r|fs r]; try (cbn; lia).
          - cbn [default]. destruct (filter fst ds) as [|d [|d2 l]] eqn:Efl.
            + cbn. lia.
            + cbn [fst]. assert (In d ds) by (apply (proj1 (filter_In fst d ds)); rewrite Efl; left; reflexivity).
              pose proof (vsize_disj d ds H). lia.
            + exfalso. cbn [default] in EF. rewrite Efl in EF. cbn in EF. discriminate EF.
          - destruct r; cbn; lia. }
        destruct (fst (default s)) as [| |a|t|lo hi|ds|es r|fs r]; try discriminate. inversion EF. subst.
        pose proof (vsize_field f ss r Hf). lia. }
      pose proof (fields_loop_fuel (check n) p ss (map (fun f => (flabel f, fval f)) gs)
                    (fun f gv q Hf => IH gv (fval f) q (HF f Hf))) as H.
      destruct (fields_loop (check n) p ss (map (fun f => (flabel f, fval f)) gs)); try discriminate. contradiction.
    + destruct (only_scalar (no_null (kind s))); discriminate.
Qed.

Lemma assignable_ends : forall sch T, assignable sch T <> OutOfFuel.
Proof.
  intros sch T. unfold assignable. destruct (deref T) as [[]|]; try discriminate.
  pose proof (check_fuel (S (vsize sch)) (encode (GStruct fs)) sch [] (le_S _ _ (le_n _))) as H.
  destruct (check (S (vsize sch)) (encode (GStruct fs)) sch []); try discriminate. contradiction.
Qed.

(** *** C47 *)

Lemma same_type_last : forall l x, same_type l -> Forall (fun e => strip e = e) l ->
  forall e, In e l -> inst e x = true -> inst (last l VBot) x = true.
Proof.
  induction l as [|a l IH]; intros x Hst Hs e He Hi; [destruct He|].
  destruct l as [|b t]; [destruct He as [<-|[]]; exact Hi|].
  apply same_type_cons in Hst. destruct Hst as [Hm Hst]. inversion Hs as [|? ? Ha Hs']. subst.
  change (last (a :: b :: t) VBot) with (last (b :: t) VBot).
  destruct He as [<-|He]; [|apply (IH x Hst Hs' e He Hi)].
  apply (IH x Hst Hs' b (or_introl eq_refl)).
  apply mutual_iff in Hm. destruct Hm as [_ Hm]. unfold subs_default in Hm. rewrite Ha in Hm.
  apply (subs_sound b a x Hm Hi).
Qed.

Lemma inst_list_all : forall es r l x, inst_list r es l = true -> In x l ->
  (exists e, In e es /\ inst e x = true) \/ (exists u, r = Some u /\ inst u x = true).
Proof.
  induction es as [|e es IH]; intros r l x H Hx.
  - right. destruct r as [u|].
    + exists u. split; [reflexivity|]. cbn in H. rewrite forallb_forall in H. auto.
    + destruct l; [destruct Hx|discriminate].
  - destruct l as [|y l]; [destruct Hx|]. cbn in H. apply andb_true_iff in H. destruct H as [H1 H2].
    destruct Hx as [<-|Hx]; [left; exists e; split; [left; reflexivity|exact H1]|].
    destruct (IH r l x H2 Hx) as [[e' [He Hi]]|H]; [left; exists e'; split; [right|]; assumption|right; exact H].
Qed.

Lemma tight_list : forall es r, tight (VList es r) -> Forall tight es /\ (forall u, r = Some u -> tight u)
  /\ (es <> [] -> Forall (fun e => strip e = e) es /\ (forall u, r = Some u -> strip u = u)).
Proof. intros es r H. inversion H as [|s Hs| |]; subst; [discriminate|auto]. Qed.

Lemma tight_struct : forall fs r, tight (VStruct fs r) -> r = None /\ Forall (fun f => tight (fval f)) fs.
Proof. intros fs r H. inversion H as [|s Hs| |]; subst; [discriminate|auto]. Qed.

Lemma last_app_one : forall (l : list val) u d, last (l ++ [u]) d = u.
Proof. intros l u d. apply last_last. Qed.

Lemma holds_rep : forall g a, holds g a = true -> rep g (DAtom a) = true.
Proof. intros g a H. destruct g; exact H. Qed.

Lemma rules_rep : forall g nul s d, rules nul g s -> tight s -> inst s d = true ->
  rep g d = true \/ (nul = true /\ d = DAtom ANull).
Proof.
  induction g as [g Hleaf|fs IH|g IH|m g IH|g IH|g IH] using gty_ind'; intros nul s d Hr Ht Hi.
  - destruct (scalar_go g) eqn:Eg.
    + apply (rules_scalar_iff g nul s Eg) in Hr. destruct Hr as [Hs [_ H]].
      assert (Hd : exists a, d = DAtom a).
      { apply (proj1 (inst_parts s d Hs)) in Hi. destruct Hi as [y [Hy Hi]].
        unfold scalar_sch in Hs. apply andb_true_iff in Hs. destruct Hs as [Hs _]. rewrite forallb_forall in Hs.
        specialize (Hs y Hy). destruct y; try discriminate; destruct d; try discriminate; eauto. }
      destruct Hd as [a ->]. destruct (H a Hi) as [E|[E1 E2]].
      * left. apply holds_rep. exact E.
      * right. subst. auto.
    + destruct g; try discriminate; try contradiction. left. destruct d; reflexivity.
  - apply (proj1 (rules_struct nul fs s)) in Hr. destruct Hr as [sfs [rest [-> [Hl Hr]]]].
    apply tight_struct in Ht. destruct Ht as [-> Ht]. left.
    destruct d as [a|l|df]; try discriminate. rewrite inst_VStruct in Hi. apply andb_true_iff in Hi.
    destruct Hi as [Hi _]. rewrite forallb_forall in Hi. cbn [rep]. apply forallb_forall. intros kx Hkx.
    specialize (Hi kx Hkx). unfold inst_at in Hi. destruct (field_of (fst kx) sfs) as [sf|] eqn:Ef; [|discriminate].
    apply field_of_some in Ef. destruct Ef as [Hsf El].
    assert (Hin : In (fst kx) (map fst fs)).
    { apply Hl. rewrite <- El. apply in_map. exact Hsf. }
    apply in_map_iff in Hin. destruct Hin as [f [Ef Hf]]. apply existsb_exists. exists f. split; [exact Hf|].
    rewrite Ef, String.eqb_refl. cbn [andb].
    rewrite Forall_forall in IH, Hr, Ht. destruct sf as [[l o] v]. cbn in El, Hi. subst l.
    destruct (IH f Hf false v (snd kx)) as [E|[C _]]; [|exact (Ht _ Hsf)|exact Hi|exact E|discriminate].
    apply (Hr f Hf o v). rewrite Ef. exact Hsf.
  - cbn [rules] in Hr. destruct Hr as [es [u [-> [Hst Hr]]]]. apply tight_list in Ht. destruct Ht as [Ht [Htu Hs]].
    left. destruct d as [a|l|df]; try discriminate. rewrite inst_VList in Hi. cbn [rep].
    apply forallb_forall. intros x Hx.
    assert (Hu : inst u x = true).
    { destruct (inst_list_all es (Some u) l x Hi Hx) as [[e [He Hix]]|[u' [E Hix]]].
      - assert (Hne : es <> []) by (intros ->; destruct He). destruct (Hs Hne) as [Hs1 Hs2].
        rewrite <- (last_app_one es u VBot). apply (same_type_last (es ++ [u]) x Hst) with (e := e).
        + apply Forall_app. split; [exact Hs1|]. constructor; [apply Hs2; reflexivity|constructor].
        + apply in_or_app. left. exact He.
        + exact Hix.
      - inversion E. exact Hix. }
    destruct (IH false u x Hr (Htu u eq_refl) Hu) as [E|[C _]]; [exact E|discriminate].
  - cbn [rules] in Hr. destruct Hr as [es [-> [El [Hst Hr]]]]. apply tight_list in Ht. destruct Ht as [Ht [_ Hs]].
    left. destruct d as [a|l|df]; try discriminate. rewrite inst_VList in Hi. cbn [rep].
    assert (Hlen : List.length l = List.length es).
    { clear -Hi. revert l Hi. induction es as [|e es IH]; intros [|x l] Hi; try discriminate; [reflexivity|].
      cbn in Hi. apply andb_true_iff in Hi. cbn. f_equal. apply IH. tauto. }
    rewrite Hlen, El, Nat.eqb_refl. cbn [andb]. apply forallb_forall. intros x Hx.
    destruct (inst_list_all es None l x Hi Hx) as [[e [He Hix]]|[u' [E _]]]; [|discriminate].
    assert (Hne : es <> []) by (intros ->; destruct He). destruct (Hs Hne) as [Hs1 _].
    pose proof (same_type_last es x Hst Hs1 e He Hix) as HL.
    destruct Hr as [->|Hr]; [exfalso; apply Hne; destruct es; [reflexivity|discriminate]|].
    rewrite Forall_forall in Ht.
    destruct (IH false (last es VBot) x Hr (Ht _ (last_in es VBot Hne)) HL) as [E|[C _]]; [exact E|discriminate].
  - contradiction.
  - cbn [rules] in Hr. left. destruct (IH true s d Hr Ht Hi) as [E|[_ ->]]; [|reflexivity].
    destruct d as [a| |]; cbn [rep] in *; try exact E. cbn [holds]. destruct a; try reflexivity;
      destruct g; exact E.
Qed.

Lemma no_loss : forall sch T fs d, struct_arg T fs -> plain sch -> doc_go (GStruct fs) -> tight sch ->
  assignable sch T = Ok ANil -> inst sch d = true -> rep (GStruct fs) d = true.
Proof.
  intros sch T fs d HT Hp Hd Ht HA Hi. apply (proj1 (exact_rules sch T fs HT Hp Hd)) in HA.
  destruct (rules_rep (GStruct fs) false sch d HA Ht Hi) as [E|[C _]]; [exact E|discriminate].
Qed.

(** *** Where the documentation and the code part *)

(** The pointer rule, at every level. *)
Fixpoint one_pointer (g : gty) : Prop :=
  match g with
  | GPtr (GPtr _) => False
  | GPtr g | GSlice g | GArray _ g | GMap g => one_pointer g
  | GStruct fs =>
      (fix go (fs : list (string * gty)) : Prop :=
         match fs with [] => True | f :: t => one_pointer (snd f) /\ go t end) fs
  | _ => True
  end.

Definition field (l : string) (v : val) : val := VStruct [(l, false, v)] None.
Definition gfield (l : string) (g : gty) : gvalue := GV (GStruct [(l, g)]).

Definition i8 : gty := GInt (-128) 127.

(** [[string]] and [[1]string] are the same list, and the rules hold. *)
Lemma one_element : 
  let s := field "a" (VList [VType TString] None) in
  let g := GStruct [("a", GArray 1 GString)] in
  doc_go g /\ rules false g s /\ assignable s (GV g) <> Ok ANil.
Proof.
  cbn zeta. split; [|split].
  - cbn. repeat split; auto. constructor; [intros []|constructor].
  - apply rules_struct. eexists _, _. split; [reflexivity|]. split; [intro l; cbn; tauto|].
    constructor; [|constructor]. intros o v [E|[]]. inversion E. subst. cbn [snd rules].
    eexists. split; [reflexivity|]. split; [reflexivity|]. split; [exact I|]. right.
    split; [reflexivity|]. split; [exists (AString ""); split; [discriminate|reflexivity]|].
    intros [] H; try discriminate. left. reflexivity.
  - vm_compute. discriminate.
Qed.

(** [number] must not be permitted, null neither, and pointers only one deep. *)
Lemma undocumented :
  assignable (field "a" (VType TNumber)) (gfield "a" GNumber) = Ok ANil
  /\ assignable (field "a" (VOr [(false, VType TString); (false, VAtom ANull)])) (gfield "a" (GPtr GString)) = Ok ANil
  /\ (let g := GStruct [("a", GPtr (GPtr GString))] in
      ~ one_pointer g /\ assignable (field "a" (VType TString)) (GV g) = Ok ANil)
  /\ assignable (field "a" (VStruct [] (Some (VType TString)))) (gfield "a" (GMap GBool)) = Ok ANil.
Proof. repeat split; vm_compute; try reflexivity. intros [C _]. exact C. Qed.

(** Data lost although the schema is assignable. *)
Definition loses (s : val) (g : gty) (d : data) : Prop :=
  assignable (field "a" s) (gfield "a" g) = Ok ANil
  /\ inst (field "a" s) (DStruct [("a", d)]) = true
  /\ rep (GStruct [("a", g)]) (DStruct [("a", d)]) = false.

Lemma lossy :
  loses (VOr [(true, VAtom (AInt 5)); (false, VType TInt)]) i8 (DAtom (AInt 300))
  /\ loses (VOr [(true, VAtom (AString "a")); (false, VType TString); (false, VAtom ANull)]) GString (DAtom ANull)
  /\ loses (VStruct [] (Some (VType TString))) (GMap GBool) (DStruct [("k", DAtom (AString "x"))])
  /\ loses (VList [VList [] (Some (VType TString)); VList [] (Some (VType TInt))] None)
       (GArray 2 (GSlice GBigInt))
       (DList [DList [DAtom (AString "x")]; DList []])
  /\ loses (VOr [(false, VList [] (Some (VType TString))); (true, VList [VAtom (AInt 1)] None)])
       (GSlice GString) (DList [DAtom (AInt 1)])
  /\ loses (VOr [(false, VStruct [("i", false, VOr [(false, VType TInt); (false, VType TString)])] None);
                 (true, VStruct [("i", false, VAtom (AString "x"))] None)])
       (GStruct [("i", GString)]) (DStruct [("i", DAtom (AInt 1))])
  /\ loses (VStruct [("i", false, VType TInt)] (Some VTop)) (GStruct [("i", GBigInt)])
       (DStruct [("i", DAtom (AInt 1)); ("j", DAtom (AInt 2))]).
Proof. unfold loses. repeat split; vm_compute; reflexivity. Qed.

(** *** C75 *)

Fixpoint no_struct (g : gty) : bool :=
  match g with
  | GStruct _ | GMap _ => false
  | GPtr g | GSlice g | GArray _ g => no_struct g
  | _ => true
  end.

Definition under (p : path) (w : list (path * amsg)) : Prop := forall e, In e w -> exists q, fst e = p ++ q.

Lemma under_one : forall p m, under p [(p, m)].
Proof. intros p m e [<-|[]]. exists []. symmetry. apply app_nil_r. Qed.

Lemma under_nil : forall p, under p [].
Proof. intros p e []. Qed.

Lemma under_step : forall p x w, under (p ++ [x]) w -> under p w.
Proof. intros p x w H e He. destruct (H e He) as [q E]. exists (x :: q). rewrite E, <- app_assoc. reflexivity. Qed.

Lemma check_cases : forall n k v s p w, is_or v = false -> subs v (VAtom ANull) = false -> is_null_val v = false ->
  no_null (kind v) = kind v -> kind v <> k_any -> check (S n) (wrapn k v) s p = Ok w ->
  under p w \/ (no_null (kind s) = kind v /\ check (S n) (wrapn k v) s p =
    if k_eqb (kind v) k_of_list then checklist (check n) v s p
    else if single_scalar (kind v) then checkscalar (if k_null (kind s) then wrapn k v else v) s p
    else if k_eqb (kind v) k_of_struct then
      if fst (expr s) then Ok [(p, MStructDisj)] else checkstruct (check n) v s p
    else if only_scalar (kind v) then Ok [(p, MMulti (kind v))] else Panic).
Proof.
  intros n k v s p w H1 H2 H3 H4 H5 E.
  destruct (k_eqb (no_null (kind s)) (kind v)) eqn:EK.
  - right. apply k_eqb_eq in EK. split; [exact EK|]. apply check_same; assumption.
  - left. rewrite check_S in E. unfold check_body in E. rewrite kind_wrap, H4, EK in E.
    replace (k_eqb (kind v) k_any) with false in E
      by (symmetry; apply not_true_iff_false; intro C; apply k_eqb_eq in C; contradiction).
    cbn in E. inversion E. apply under_one.
Qed.

Ltac split_cases E H :=
  match type of E with check (S ?n) (wrapn ?k ?v) ?s ?p = Ok ?w =>
    destruct (check_cases n k v s p w eq_refl eq_refl eq_refl eq_refl ltac:(discriminate) E) as [H|[_ H]] end.

Lemma checklist_body_under : forall n v s p w,
  (forall s w x, (x = match list_elems v with y :: _ => y | [] => VBot end \/ any_index v = Some x) ->
     check n x s (p ++ [SAny]) = Ok w -> under (p ++ [SAny]) w) ->
  (exists es r, v = VList es r) ->
  checklist_body (check n) v s p = Ok w -> under p w.
Proof.
  intros n v s p w IH [es0 [r0 ->]] E. unfold checklist_body in E.
  destruct (negb (Bool.eqb _ _)); [destruct (len_concrete s); inversion E; apply under_one|].
  destruct (negb (len_subsumes _ s)); [inversion E; apply under_one|].
  cbn [list_elems any_index len_concrete] in *.
  destruct (match list_elems s with [] => _ | _ => _ end) as [[los lv]|]; [|inversion E; apply under_one].
  destruct r0 as [u|].
  - destruct (match list_elems s with [] => true | _ => _ end).
    + apply (under_step p SAny). eapply IH; [|exact E]. right. reflexivity.
    + inversion E. apply under_one.
  - destruct es0 as [|y t]; [inversion E; apply under_nil|].
    apply (under_step p SAny). eapply IH; [|exact E]. left. reflexivity.
Qed.

Lemma check_under : forall g, no_struct g = true -> forall k n s p w,
  check n (wrapn (k + nulls g) (core g)) s p = Ok w -> under p w.
Proof.
  induction g as [g Hleaf|fs IH|g IH|m g IH|g IH|g IH] using gty_ind'; intros Hg k n s p w E;
    try discriminate; (destruct n as [|n]; [discriminate|]).
  - destruct g; try contradiction.
    + cbn [core encode nulls] in E. rewrite check_any in E. inversion E. apply under_nil.
    + cbn [core nulls] in E. split_cases E H; [exact H|].
      rewrite H in E. cbn in E. unfold checkscalar in E. destruct (subs_default _ s); inversion E; [apply under_nil|apply under_one].
    + cbn [core nulls] in E. split_cases E H; [exact H|].
      rewrite H in E. cbn in E. unfold checkscalar in E. destruct (subs_default _ s); inversion E; [apply under_nil|apply under_one].
    + cbn [core nulls] in E. split_cases E H; [exact H|].
      rewrite H in E. cbn in E. unfold checkscalar in E. destruct (subs_default _ s); inversion E; [apply under_nil|apply under_one].
    + cbn [core nulls] in E. split_cases E H; [exact H|].
      rewrite H in E. cbn in E. unfold checkscalar in E. destruct (subs_default _ s); inversion E; [apply under_nil|apply under_one].
    + cbn [core nulls] in E. split_cases E H; [exact H|].
      rewrite H in E. cbn in E. unfold checkscalar in E. destruct (subs_default _ s); inversion E; [apply under_nil|apply under_one].
    + cbn [core nulls] in E. split_cases E H; [exact H|].
      rewrite H in E. cbn in E. unfold checkscalar in E. destruct (subs_default _ s); inversion E; [apply under_nil|apply under_one].
  - cbn [core nulls] in E.
    split_cases E H; [exact H|].
    rewrite H in E. change (k_eqb (kind (VList [] (Some (encode g)))) k_of_list) with true in E. cbn iota in E.
    assert (B : forall s, checklist_body (check n) (VList [] (Some (encode g))) s p = Ok w -> under p w).
    { intros s' E'. eapply checklist_body_under; [|eauto|exact E']. intros s2 w2 x [->|Hx] Ex.
      - cbn [list_elems] in Ex. destruct n as [|n]; [discriminate|]. rewrite check_S in Ex. unfold check_body in Ex.
        change (kind VBot) with k_bottom in Ex. change (no_null k_bottom) with k_bottom in Ex.
        change (k_eqb k_bottom k_any) with false in Ex. cbn [negb] in Ex. rewrite andb_true_r in Ex.
        destruct (k_eqb (no_null (kind s2)) k_bottom) eqn:EK; cbn [negb] in Ex.
        + apply k_eqb_eq in EK. rewrite EK in Ex. cbn in Ex. inversion Ex. apply under_one.
        + inversion Ex. apply under_one.
      - cbn [any_index] in Hx. inversion Hx. subst x. rewrite encode_wrap in Ex. apply (IH Hg 0 n s2 _ w2 Ex). }
    unfold checklist in E. destruct (snd (default s)).
    + destruct (Nat.ltb 2 _); [inversion E; apply under_one|]. destruct (snd (expr s)) as [|e t]; [discriminate|].
      apply (B e E).
    + apply (B s E).
  - cbn [core nulls] in E. change (encode (GArray m g)) with (VList (repeat (encode g) m) None) in E.
    split_cases E H; [exact H|].
    rewrite H in E. change (k_eqb (kind (VList (repeat (encode g) m) None)) k_of_list) with true in E. cbn iota in E.
    assert (B : forall s, checklist_body (check n) (VList (repeat (encode g) m) None) s p = Ok w -> under p w).
    { intros s' E'. eapply checklist_body_under; [|eauto|exact E']. intros s2 w2 x [->|Hx] Ex.
      - destruct m as [|m].
        + cbn [list_elems repeat] in Ex. destruct n as [|n]; [discriminate|]. rewrite check_S in Ex. unfold check_body in Ex.
          change (kind VBot) with k_bottom in Ex. change (no_null k_bottom) with k_bottom in Ex.
          change (k_eqb k_bottom k_any) with false in Ex. cbn [negb] in Ex. rewrite andb_true_r in Ex.
          destruct (k_eqb (no_null (kind s2)) k_bottom) eqn:EK; cbn [negb] in Ex.
          * apply k_eqb_eq in EK. rewrite EK in Ex. cbn in Ex. inversion Ex. apply under_one.
          * inversion Ex. apply under_one.
        + cbn [list_elems repeat] in Ex. rewrite encode_wrap in Ex. apply (IH Hg 0 n s2 _ w2 Ex).
      - discriminate. }
    unfold checklist in E. destruct (snd (default s)).
    + destruct (Nat.ltb 2 _); [inversion E; apply under_one|]. destruct (snd (expr s)) as [|e t]; [discriminate|].
      apply (B e E).
    + apply (B s E).
  - cbn [core nulls] in E. replace (k + S (nulls g)) with (S k + nulls g) in E by lia.
    apply (IH Hg (S k) (S n) s p w E).
Qed.

Lemma path_eqb_eq : forall a b, path_eqb a b = true <-> a = b.
Proof.
  assert (S : forall x y, sel_eqb x y = true <-> x = y).
  { intros [l|] [l'|]; cbn; split; intro H; try discriminate; try reflexivity.
    - apply String.eqb_eq in H. subst. reflexivity.
    - inversion H. apply String.eqb_refl. }
  induction a as [|x a IH]; intros [|y b]; cbn; split; intro H; try discriminate; try reflexivity.
  - apply andb_true_iff in H. destruct H as [H1 H2]. apply S in H1. apply IH in H2. subst. reflexivity.
  - inversion H. subst. apply andb_true_iff. split; [apply S|apply IH]; reflexivity.
Qed.

Lemma errs_of_app : forall w e, errs_of (w ++ [e]) = put (errs_of w) e.
Proof. intros w e. unfold errs_of. rewrite fold_left_app. reflexivity. Qed.

Lemma errs_in : forall w e, In e (errs_of w) -> In e w.
Proof.
  intro w. induction w as [|x w IH] using rev_ind; intros e H; [exact H|].
  rewrite errs_of_app in H. unfold put in H. apply in_app_or in H. apply in_or_app. destruct H as [H|H].
  - apply filter_In in H. left. apply IH. tauto.
  - right. exact H.
Qed.

Lemma errs_key : forall w p m, In (p, m) w -> exists m', In (p, m') (errs_of w).
Proof.
  intro w. induction w as [|x w IH] using rev_ind; intros p m H; [destruct H|].
  rewrite errs_of_app. unfold put. apply in_app_or in H. destruct H as [H|[->|[]]].
  - destruct (path_eqb p (fst x)) eqn:E.
    + apply path_eqb_eq in E. subst p. exists (snd x). apply in_or_app. right. left. destruct x; reflexivity.
    + destruct (IH p m H) as [m' H']. exists m'. apply in_or_app. left. apply filter_In. split; [exact H'|].
      cbn. rewrite E. reflexivity.
  - exists m. apply in_or_app. right. left. reflexivity.
Qed.

Lemma fields_loop_log : forall chk p sfs gmap w lft, NoDup (map flabel sfs) ->
  fields_loop chk p sfs gmap = Ok (w, lft) ->
  forall e, In e w <-> exists f, In f sfs /\
    ((find (fun x => String.eqb (flabel f) (fst x)) gmap = None /\ e = (p ++ [SField (flabel f)], MAbsentGo))
     \/ exists gv w', find (fun x => String.eqb (flabel f) (fst x)) gmap = Some (flabel f, gv)
        /\ chk gv (fval f) (p ++ [SField (flabel f)]) = Ok w' /\ In e w').
Proof.
  intros chk p sfs. induction sfs as [|f sfs IH]; intros gmap w lft ND E e.
  - cbn in E. inversion E. subst. split; [intros []|intros [f [[] _]]].
  - cbn [map] in ND. inversion ND as [|? ? Hn ND']. subst. cbn [fields_loop] in E.
    assert (NE : forall f', In f' sfs -> flabel f' <> flabel f).
    { intros f' Hf' C. apply Hn. rewrite <- C. apply in_map. exact Hf'. }
    destruct (find (fun x => String.eqb (flabel f) (fst x)) gmap) as [[l gv]|] eqn:Ef.
    + pose proof (find_fst _ _ _ Ef) as [El _]. cbn in El. subst l.
      destruct (chk gv (fval f) (p ++ [SField (flabel f)])) as [w0| | |] eqn:E0; try discriminate. cbn [bind] in E.
      destruct (fields_loop chk p sfs (filter (fun x => negb (String.eqb (flabel f) (fst x))) gmap)) as [[w1 l1]| | |] eqn:E1; try discriminate.
      cbn in E. inversion E. subst. specialize (IH _ _ _ ND' E1 e). split.
      * intro H. apply in_app_or in H. destruct H as [H|H].
        -- exists f. split; [left; reflexivity|]. right. exists gv, w0. auto.
        -- apply IH in H. destruct H as [f' [Hf' H]]. exists f'. split; [right; exact Hf'|].
           rewrite find_filter in H by (apply NE; exact Hf'). exact H.
      * intros [f' [[<-|Hf'] H]]; apply in_or_app.
        -- left. destruct H as [[C _]|[gv' [w' [Eg [Ec Hi]]]]]; [congruence|]. rewrite Ef in Eg. inversion Eg. subst gv'.
           rewrite E0 in Ec. inversion Ec. subst. exact Hi.
        -- right. apply IH. exists f'. split; [exact Hf'|]. rewrite find_filter by (apply NE; exact Hf'). exact H.
    + destruct (fields_loop chk p sfs gmap) as [[w1 l1]| | |] eqn:E1; try discriminate. cbn in E. inversion E. subst.
      specialize (IH _ _ _ ND' E1 e). split.
      * intros [<-|H]; [exists f; split; [left; reflexivity|left; auto]|].
        apply IH in H. destruct H as [f' [Hf' H]]. exists f'. split; [right; exact Hf'|exact H].
      * intros [f' [[<-|Hf'] H]].
        -- left. destruct H as [[_ ->]|[gv' [w' [Eg _]]]]; [reflexivity|congruence].
        -- right. apply IH. exists f'. auto.
Qed.

(** The fields of a struct schema and of a Go struct that do not fit. *)
Definition wrong (sfs : list (string * bool * val)) (fs : list (string * gty)) (l : string) : Prop :=
  (In l (map flabel sfs) /\ ~ In l (map fst fs))
  \/ (In l (map fst fs) /\ ~ In l (map flabel sfs))
  \/ exists o v g, In (l, o, v) sfs /\ In (l, g) fs /\ ~ rules false g v.

Definition reported (m : list (path * amsg)) (l : string) : Prop := exists q msg, In (SField l :: q, msg) m.

Lemma reports : forall sfs rest fs T m, struct_arg T fs ->
  plain (VStruct sfs rest) -> doc_go (GStruct fs) -> Forall (fun f => no_struct (snd f) = true) fs ->
  assignable (VStruct sfs rest) T = Ok (AErrs m) ->
  (forall l, reported m l <-> wrong sfs fs l)
  /\ (forall e, In e m -> exists l q, fst e = SField l :: q)
  /\ (forall l, In l (map flabel sfs) -> ~ In l (map fst fs) -> forall q msg, In (SField l :: q, msg) m <-> q = [] /\ msg = MAbsentGo)
  /\ (forall l, In l (map fst fs) -> ~ In l (map flabel sfs) -> forall q msg, In (SField l :: q, msg) m <-> q = [] /\ msg = MAbsentSchema).
Proof.
  intros sfs rest fs T m HT Hp Hd HN HA.
  assert (E : assignable (VStruct sfs rest) T = assignable (VStruct sfs rest) (GV (GStruct fs))) by (destruct HT; subst; reflexivity).
  rewrite E in HA. clear E HT T. unfold assignable, deref in HA.
  set (n := vsize (VStruct sfs rest)) in *.
  destruct (check (S n) (encode (GStruct fs)) (VStruct sfs rest) []) as [w| | |] eqn:Ew; try discriminate.
  cbn [bind] in HA. destruct w as [|e0 w0]; [discriminate|]. injection HA as HA. subst m.
  set (w := e0 :: w0) in *. clearbody w.
  rewrite check_S in Ew. unfold check_body in Ew.
  change (no_null (kind (VStruct sfs rest))) with k_of_struct in Ew.
  change (no_null (kind (encode (GStruct fs)))) with k_of_struct in Ew.
  change (stripLeadNull (encode (GStruct fs))) with (encode (GStruct fs)) in Ew.
  cbn [k_eqb k_of_struct k_any k_of_list no_null negb andb single_scalar map existsb k_of_type orb fst expr k_null k_bool k_int k_float k_string k_bytes k_list k_struct Bool.eqb k_top] in Ew.
  unfold checkstruct in Ew. cbn [fields default fst] in Ew.
  change (fields (encode (GStruct fs))) with (Some (map (fun f : string * gty => (fst f, false, encode (snd f))) fs)) in Ew.
  cbn iota beta in Ew. rewrite map_map in Ew. cbn [flabel fval fst snd] in Ew.
  set (gmap := map (fun f : string * gty => (fst f, encode (snd f))) fs) in *.
  destruct (fields_loop (check n) [] sfs gmap) as [[wl lft]| | |] eqn:EL; try discriminate. cbn [bind fst snd] in Ew.
  injection Ew as Eww.
  destruct (plain_struct _ Hp eq_refl) as [[fs' [rest' [EE [ND HF]]]]|[C _]]; [|discriminate].
  injection EE as <- <-.
  cbn [doc_go] in Hd. destruct Hd as [NDg Hd]. apply (proj1 (go_doc fs)) in Hd.
  rewrite Forall_forall in HF, Hd, HN.
  pose proof (fields_loop_log _ _ _ _ _ _ ND EL) as HL. cbn [app] in HL.
  assert (CK : forall f sf p', In f fs -> In sf sfs ->
            ok_iff (check n (encode (snd f)) (fval sf) p') (rules false (snd f) (fval sf))).
  { intros f sf p' Hf Hsf. rewrite encode_wrap. apply (check_rules (snd f) (Hd f Hf) 0 n (fval sf) p' (HF sf Hsf)).
    pose proof (vsize_field sf sfs rest Hsf). unfold n. lia. }
  assert (FF : forall f, In f fs -> find (fun x => String.eqb (fst f) (fst x)) gmap = Some (fst f, encode (snd f))).
  { unfold gmap. clear -NDg. induction fs as [|f fs IH]; intros g Hg; [destruct Hg|].
    cbn [map] in *. inversion NDg as [|? ? Hn ND]. subst. cbn [find fst]. destruct Hg as [<-|Hg].
    - rewrite String.eqb_refl. reflexivity.
    - destruct (String.eqb_spec (fst g) (fst f)) as [C|C].
      + exfalso. apply Hn. rewrite <- C. apply in_map. exact Hg.
      + apply IH; assumption. }
  assert (FS : forall l gv, find (fun x => String.eqb l (fst x)) gmap = Some (l, gv) ->
               exists f, In f fs /\ fst f = l /\ gv = encode (snd f)).
  { intros l gv H. apply find_fst in H. destruct H as [_ H]. unfold gmap in H. apply in_map_iff in H.
    destruct H as [f [Ef Hf]]. injection Ef as E1 E2. exists f. auto. }
  assert (FN : forall l, find (fun x => String.eqb l (fst x)) gmap = None <-> ~ In l (map fst fs)).
  { intro l. split.
    - intros H C. apply in_map_iff in C. destruct C as [f [<- Hf]]. rewrite (FF f Hf) in H. discriminate.
    - intro H. destruct (find (fun x => String.eqb l (fst x)) gmap) as [[l' gv]|] eqn:X; [|reflexivity].
      exfalso. apply find_fst in X. destruct X as [El X]. cbn in El. subst l'. apply H. unfold gmap in X.
      apply in_map_iff in X. destruct X as [f [Ef Hf]]. injection Ef as E1 E2. rewrite <- E1. apply in_map. exact Hf. }
  assert (LF : forall x, In x lft <-> In x gmap /\ ~ In (fst x) (map flabel sfs)).
  { intro x. destruct (fields_loop_spec (check n) [] sfs gmap ND) as [w' [E' _]].
    - intros sf gv Hsf Hgv. unfold gmap in Hgv. apply in_map_iff in Hgv. destruct Hgv as [f [Ef Hf]].
      injection Ef as E1 E2. rewrite <- E2. destruct (CK f sf ([] ++ [SField (flabel sf)]) Hf Hsf) as [w' [E' _]].
      exists w'. exact E'.
    - rewrite EL in E'. injection E' as _ ->. unfold left_of. rewrite filter_In. rewrite negb_true_iff, <- not_true_iff_false, existsb_exists.
      split; intros [H1 H2]; (split; [exact H1|]); intro C; apply H2.
      + exists (fst x). split; [exact C|apply String.eqb_refl].
      + destruct C as [y [Hy C]]. apply String.eqb_eq in C. rewrite C. exact Hy. }
  assert (W : forall e, In e w <->
    (exists f, In f sfs /\ ~ In (flabel f) (map fst fs) /\ e = ([SField (flabel f)], MAbsentGo))
    \/ (exists f gf w', In f sfs /\ In gf fs /\ fst gf = flabel f /\ check n (encode (snd gf)) (fval f) [SField (flabel f)] = Ok w' /\ In e w')
    \/ (exists gf, In gf fs /\ ~ In (fst gf) (map flabel sfs) /\ e = ([SField (fst gf)], MAbsentSchema))).
  { intro e. rewrite <- Eww. rewrite in_app_iff, HL. split.
    - intros [[f [Hf [[H1 H2]|[gv [w' [H1 [H2 H3]]]]]]]|H].
      + left. exists f. split; [exact Hf|]. split; [apply FN; exact H1|exact H2].
      + right. left. destruct (FS _ _ H1) as [gf [Hg [Eg ->]]]. exists f, gf, w'. auto.
      + right. right. apply in_map_iff in H. destruct H as [x [<- Hx]]. apply LF in Hx. destruct Hx as [Hx Hn].
        unfold gmap in Hx. apply in_map_iff in Hx. destruct Hx as [gf [<- Hg]]. cbn [fst] in *. exists gf. auto.
    - intros [[f [Hf [H1 H2]]]|[[f [gf [w' [Hf [Hg [Eg [Ec Hi]]]]]]]|[gf [Hg [Hn ->]]]]].
      + left. exists f. split; [exact Hf|]. left. split; [apply FN; exact H1|exact H2].
      + left. exists f. split; [exact Hf|]. right. exists (encode (snd gf)), w'. split; [|auto].
        rewrite <- Eg. apply FF. exact Hg.
      + right. apply in_map_iff. exists (fst gf, encode (snd gf)). split; [reflexivity|]. apply LF. split; [|exact Hn].
        unfold gmap. apply in_map_iff. exists gf. auto. }
  assert (HU : forall f gf w' e, In f sfs -> In gf fs -> check n (encode (snd gf)) (fval f) [SField (flabel f)] = Ok w' -> In e w' ->
    exists q, fst e = SField (flabel f) :: q).
  { intros f gf w' e Hf Hg Ec He. rewrite encode_wrap in Ec.
    destruct (check_under (snd gf) (HN gf Hg) 0 n (fval f) _ w' Ec e He) as [q Eq]. exists q. exact Eq. }
  clear HL FF FS FN LF EL Eww wl lft gmap e0 w0.
  split; [|split; [|split]].
  - intro l. split.
    + intros [q [msg H]]. apply errs_in in H. apply W in H.
      destruct H as [[f [Hf [Hn E]]]|[[f [gf [w' [Hf [Hg [Eg [Ec Hi]]]]]]]|[gf [Hg [Hn E]]]]].
      * inversion E. subst. left. split; [apply in_map; exact Hf|exact Hn].
      * destruct (HU f gf w' _ Hf Hg Ec Hi) as [q' Eq]. cbn in Eq. inversion Eq. subst.
        right. right. destruct f as [[l o] v]. destruct gf as [l' g]. cbn in Eg. subst l'. exists o, v, g.
        split; [exact Hf|]. split; [exact Hg|]. intro R.
        destruct (CK _ _ [SField l] Hg Hf) as [w2 [E2 H2]]. cbn in E2, Ec. rewrite Ec in E2. inversion E2. subst w2.
        apply (proj2 H2) in R. subst w'. destruct Hi.
      * inversion E. subst. right. left. split; [apply in_map; exact Hg|exact Hn].
    + intros [[H1 H2]|[[H1 H2]|[o [v [g [Hf [Hg R]]]]]]].
      * apply in_map_iff in H1. destruct H1 as [f [<- Hf]].
        destruct (errs_key w [SField (flabel f)] MAbsentGo) as [m' Hm']; [|exists [], m'; exact Hm'].
        apply W. left. eauto.
      * apply in_map_iff in H1. destruct H1 as [f [<- Hf]].
        destruct (errs_key w [SField (fst f)] MAbsentSchema) as [m' Hm']; [|exists [], m'; exact Hm'].
        apply W. right. right. eauto.
      * destruct (CK _ _ [SField l] Hg Hf) as [w2 [E2 H2]]. cbn [fst snd fval] in E2, H2.
        destruct w2 as [|[p0 m0] w2]; [exfalso; apply R; apply H2; reflexivity|].
        assert (Hin : In (p0, m0) w).
        { apply W. right. left. exists (l, o, v), (l, g), ((p0, m0) :: w2). split; [exact Hf|]. split; [exact Hg|].
          split; [reflexivity|]. split; [exact E2|left; reflexivity]. }
        destruct (HU (l, o, v) (l, g) _ (p0, m0) Hf Hg E2 (or_introl eq_refl)) as [q Eq]. cbn in Eq. subst p0.
        destruct (errs_key w _ _ Hin) as [m' Hm']. exists q, m'. exact Hm'.
  - intros e He. apply errs_in in He. apply W in He.
    destruct He as [[f [_ [_ ->]]]|[[f [gf [w' [Hf [Hg [_ [Ec Hi]]]]]]]|[gf [_ [_ ->]]]]]; cbn; eauto.
  - intros l H1 H2 q msg.
    assert (ONE : forall q msg, In (SField l :: q, msg) w -> q = [] /\ msg = MAbsentGo).
    { intros q' m' H. apply W in H.
      destruct H as [[f [Hf [Hn E]]]|[[f [gf [w' [Hf [Hg [Eg [Ec Hi]]]]]]]|[gf [Hg [Hn E]]]]].
      - inversion E. auto.
      - exfalso. destruct (HU f gf w' _ Hf Hg Ec Hi) as [q2 Eq]. cbn in Eq. inversion Eq. subst l. apply H2.
        rewrite <- Eg. apply in_map. exact Hg.
      - exfalso. inversion E. subst l. apply H2. apply in_map. exact Hg. }
    split; [intro H; apply ONE; apply errs_in; exact H|]. intros [-> ->].
    apply in_map_iff in H1. destruct H1 as [f [E Hf]].
    destruct (errs_key w [SField l] MAbsentGo) as [m' Hm'].
    { apply W. left. exists f. rewrite E. auto. }
    destruct (ONE [] m' (errs_in _ _ Hm')) as [_ ->]. exact Hm'.
  - intros l H1 H2 q msg.
    assert (ONE : forall q msg, In (SField l :: q, msg) w -> q = [] /\ msg = MAbsentSchema).
    { intros q' m' H. apply W in H.
      destruct H as [[f [Hf [Hn E]]]|[[f [gf [w' [Hf [Hg [Eg [Ec Hi]]]]]]]|[gf [Hg [Hn E]]]]].
      - exfalso. inversion E. subst l. apply H2. apply in_map. exact Hf.
      - exfalso. destruct (HU f gf w' _ Hf Hg Ec Hi) as [q2 Eq]. cbn in Eq. inversion Eq. subst l. apply H2.
        apply in_map. exact Hf.
      - inversion E. auto. }
    split; [intro H; apply ONE; apply errs_in; exact H|]. intros [-> ->].
    apply in_map_iff in H1. destruct H1 as [f [E Hf]].
    destruct (errs_key w [SField l] MAbsentSchema) as [m' Hm'].
    { apply W. right. right. exists f. rewrite E. auto. }
    destruct (ONE [] m' (errs_in _ _ Hm')) as [_ ->]. exact Hm'.
Qed.

(** A Go-only field of a nested struct is recorded without its path, and hides
    another error. *)
Definition hide_schema : val := VStruct [("a", false, VType TInt); ("n", false, VStruct [] None)] None.
Definition hide_go : gty := GStruct [("a", GString); ("n", GStruct [("a", GBool)])].

Lemma hidden : assignable hide_schema (GV hide_go) = Ok (AErrs [([SField "a"], MAbsentSchema)])
  /\ exists m, assignable (VStruct [("a", false, VType TInt)] None) (GV (GStruct [("a", GString)])) = Ok (AErrs [([SField "a"], m)])
     /\ m <> MAbsentSchema.
Proof. split; [vm_compute; reflexivity|]. eexists. split; [vm_compute; reflexivity|discriminate]. Qed.
