(** Proofs for [OpFilter.v]. *)
From Verif Require Import Prelude Prune PruneProofs OpFilter.
Local Open Scope string_scope.
Local Open Scope list_scope.

(** *** Specification *)

(** The options keep an operation with these tags. *)
Definition stays (excluded included tags : list string) : Prop :=
  (forall t, In t tags -> ~ In t excluded) /\ (included <> [] -> exists t, In t tags /\ In t included).

(** The same item, but for operations that do not stay. *)
Definition thinned (excluded included : list string) (i i' : titem) : Prop :=
  i_params i' = i_params i /\
  Forall2 (fun e e' => fst e' = fst e /\
    match snd e with
    | None => snd e' = None
    | Some o => (stays excluded included (t_tags o) /\ snd e' = Some o) \/ (~ stays excluded included (t_tags o) /\ snd e' = None)
    end) (i_ops i) (i_ops i').

(** Methods are distinct, as fields of a struct are. *)
Definition methods_once (d : tdoc) : Prop := forall l i, In (l, i) (td_paths d) -> NoDup (map fst (i_ops i)).

(** *** Proofs *)

Lemma has_tag_iff o tags : operationHasTag (Some o) tags = true <-> exists t, In t (t_tags o) /\ In t tags.
Proof.
  cbn [operationHasTag]. rewrite existsb_exists. split.
  - intros (t & H & E). apply existsb_exists in E as (w & I & E). apply String.eqb_eq in E. subst w. exists t. split; assumption.
  - intros (t & H & I). exists t. split; [exact H|]. apply existsb_exists. exists t. split; [exact I|apply String.eqb_refl].
Qed.

Lemma fold_set ns : forall i,
  fold_left (fun i n => setOperation n i) ns i
  = mkItem (i_params i) (map (fun e => if existsb (String.eqb (fst e)) ns then (fst e, None) else e) (i_ops i)).
Proof.
  induction ns as [|n ns IH]; intros i; cbn [fold_left].
  - destruct i as [ps os]. cbn. f_equal. symmetry. apply map_id.
  - rewrite IH. unfold setOperation. cbn [i_params i_ops]. f_equal. rewrite map_map. apply map_ext. intros [m o]. cbn [fst existsb].
    destruct (m =? n) eqn:E; cbn [fst]; [|reflexivity]. cbn [orb]. destruct (existsb (String.eqb m) ns); reflexivity.
Qed.

Definition gone (tags : list string) (exclude : bool) (o : option top) : bool :=
  match o with None => false | Some _ => Bool.eqb (operationHasTag o tags) exclude end.
Lemma include_eq tags ex i : NoDup (map fst (i_ops i)) ->
  include_item tags ex i = mkItem (i_params i) (map (fun e => if gone tags ex (snd e) then (fst e, None) else e) (i_ops i)).
Proof.
  intros N. unfold include_item. rewrite fold_set. f_equal. apply map_ext_in. intros [m o] I. cbn [fst snd].
  assert (E : existsb (String.eqb m) (names_to_remove i tags ex) = gone tags ex o).
  { destruct (gone tags ex o) eqn:G.
    - apply existsb_exists. exists m. split; [|apply String.eqb_refl]. apply in_flat_map. exists (m, o). split; [exact I|].
      unfold gone in G. destruct o as [o|]; [|discriminate G]. cbn [snd fst]. rewrite G. left. reflexivity.
    - destruct (existsb (String.eqb m) (names_to_remove i tags ex)) eqn:X; [|reflexivity]. exfalso.
      apply existsb_exists in X as (m' & Hm & Em). apply String.eqb_eq in Em. subst m'. apply in_flat_map in Hm as ([k q] & J & Hm).
      cbn [fst snd] in Hm. destruct q as [q|]; [|destruct Hm]. destruct (Bool.eqb (operationHasTag (Some q) tags) ex) eqn:B; [|destruct Hm].
      destruct Hm as [->|[]]. assert (Some q = o); [|subst o; unfold gone in G; congruence].
      clear - N I J. induction (i_ops i) as [|[a b] l IH]; [destruct I|]. inversion N as [|? ? Hn N']; subst.
      destruct I as [E|I], J as [F|J].
      + congruence.
      + injection E as -> ->. destruct Hn. exact (List.in_map fst _ _ J).
      + injection F as -> ->. destruct Hn. exact (List.in_map fst _ _ I).
      + exact (IH N' I J). }
  rewrite E. reflexivity.
Qed.
Lemma include_methods tags ex i : NoDup (map fst (i_ops i)) -> map fst (i_ops (include_item tags ex i)) = map fst (i_ops i).
Proof.
  intros N. rewrite (include_eq tags ex i N). cbn [i_ops]. rewrite map_map. apply map_ext. intros [m o]. cbn [snd fst].
  destruct (gone tags ex o); reflexivity.
Qed.

(** One entry through both filters. *)
Definition both (exc inc : list string) (i : titem) : titem :=
  let i := match exc with [] => i | _ => include_item exc true i end in
  match inc with [] => i | _ => include_item inc false i end.
Lemma filter_eq exc inc d : filterOperationsByTag exc inc d = mkTdoc (map (fun e => (fst e, both exc inc (snd e))) (td_paths d)) (td_comps d).
Proof.
  unfold filterOperationsByTag, both, excludeOperationsWithTags, includeOperationsWithTags. destruct d as [ps c]. cbn [td_paths td_comps].
  destruct exc, inc; cbn [td_paths td_comps]; f_equal; rewrite ?map_map; try (apply map_ext; intros [a b]; reflexivity).
  transitivity (map (fun e : string * titem => e) ps); [symmetry; apply map_id|]. apply map_ext. intros [a b]. reflexivity.
Qed.

Lemma gone_iff tags ex o : gone tags ex (Some o) = true <->
  if ex then exists t, In t (t_tags o) /\ In t tags else ~ exists t, In t (t_tags o) /\ In t tags.
Proof.
  unfold gone. assert (H := has_tag_iff o tags). destruct (operationHasTag (Some o) tags), ex; cbn [Bool.eqb]; intuition congruence.
Qed.

Lemma one_thinned tags (ex : bool) i : NoDup (map fst (i_ops i)) ->
  thinned (if ex then tags else @nil string) (if ex then @nil string else tags) i (match tags with [] => i | _ => include_item tags ex i end).
Proof.
  intros N. destruct tags as [|t tags].
  - split; [reflexivity|]. induction (i_ops i) as [|[m o] l IH]; [constructor|]. inversion N; subst. constructor; [|apply IH; assumption].
    cbn [fst snd]. split; [reflexivity|]. destruct o as [o|]; [|reflexivity]. left. split; [|reflexivity].
    destruct ex; (split; [intros t _ []|intros D; destruct D; reflexivity]).
  - rewrite (include_eq _ _ _ N). split; [reflexivity|]. cbn [i_ops]. clear N. induction (i_ops i) as [|[m o] l IH]; [constructor|].
    cbn [map]. constructor; [|exact IH]. cbn [fst snd]. destruct o as [o|]; [|split; reflexivity].
    assert (G := gone_iff (t :: tags) ex o). destruct (gone (t :: tags) ex (Some o)) eqn:E; cbn [fst snd]; (split; [reflexivity|]).
    + right. split; [|reflexivity]. intros [A B]. assert (G' := proj1 G eq_refl). destruct ex.
      * destruct G' as (w & H1 & H2). exact (A w H1 H2).
      * apply G'. apply B. discriminate.
    + left. split; [|reflexivity]. destruct ex.
      * split; [|intros D; destruct D; reflexivity]. intros w H1 H2. enough (false = true) by discriminate. apply G. exists w. split; assumption.
      * split; [intros w _ []|]. intros _. rewrite <- has_tag_iff. unfold gone in E.
        destruct (operationHasTag (Some o) (t :: tags)); [reflexivity|discriminate E].
Qed.
Lemma thinned_trans exc inc i j k : thinned exc [] i j -> thinned [] inc j k -> thinned exc inc i k.
Proof.
  intros [P1 F1] [P2 F2]. split; [congruence|]. revert F1 F2. generalize (i_ops i) (i_ops j) (i_ops k). clear. intros l1 l2 l3 F1. revert l3.
  induction F1 as [|[m o] [m' o'] l l' [E1 H1] F1 IH]; intros l3 F2; inversion F2 as [|? [m2 o2] ? k' [E2 H2] F2']; subst; [constructor|].
  constructor; [|apply IH, F2']. cbn [fst snd] in *. split; [congruence|]. unfold stays in *. destruct o as [o|].
  - destruct H1 as [[S1 ->]|[S1 ->]].
    + destruct H2 as [[S2 ->]|[S2 ->]].
      * left. split; [|reflexivity]. split; [exact (proj1 S1)|exact (proj2 S2)].
      * right. split; [|reflexivity]. intros [_ B]. apply S2. split; [intros w _ []|exact B].
    + right. split; [|exact H2]. intros [A _]. apply S1. split; [exact A|intros D; destruct D; reflexivity].
  - subst o'. exact H2.
Qed.
Lemma both_thinned exc inc i : NoDup (map fst (i_ops i)) -> thinned exc inc i (both exc inc i).
Proof.
  intros N. apply (thinned_trans exc inc i (match exc with [] => i | _ => include_item exc true i end)).
  - exact (one_thinned exc true i N).
  - unfold both. apply (one_thinned inc false). destruct exc; [exact N|]. rewrite include_methods; exact N.
Qed.

Lemma filter_exact exc inc d : methods_once d ->
  td_comps (filterOperationsByTag exc inc d) = td_comps d /\
  Forall2 (fun e e' => fst e' = fst e /\ thinned exc inc (snd e) (snd e')) (td_paths d) (td_paths (filterOperationsByTag exc inc d)).
Proof.
  intros M. rewrite filter_eq. split; [reflexivity|]. cbn [td_paths]. unfold methods_once in M. induction (td_paths d) as [|[l i] ps IH]; [constructor|].
  cbn [map]. constructor; [|apply IH; intros a b I; apply (M a b); right; exact I]. cbn [fst snd]. split; [reflexivity|].
  apply both_thinned. apply (M l i). left. reflexivity.
Qed.

(** What is referred to from the paths that are left. *)
Lemma left_at exc inc d x : methods_once d ->
  path_at false (plain_doc (filterOperationsByTag exc inc d)) x <->
  exists l i, In (l, i) (td_paths d) /\
    ((exists r, In (Some r) (i_params i) /\ at_param false x r) \/
     (exists m o, In (m, Some o) (i_ops i) /\ stays exc inc (t_tags o) /\ at_oper false x (t_oper o))).
Proof.
  intros M. destruct (filter_exact exc inc d M) as [_ F]. unfold path_at, plain_doc. cbn [d_paths].
  revert F. generalize (td_paths (filterOperationsByTag exc inc d)). generalize (td_paths d). clear. intros l1 l2 F.
  assert (K : forall i i', thinned exc inc i i' -> at_item false x (plain_item i') <->
    (exists r, In (Some r) (i_params i) /\ at_param false x r) \/
    (exists m o, In (m, Some o) (i_ops i) /\ stays exc inc (t_tags o) /\ at_oper false x (t_oper o))).
  { intros i i' [P G]. unfold plain_item. rewrite P. clear P.
    assert (Ops : (exists o, In (Some o) (map (fun e => option_map t_oper (snd e)) (i_ops i')) /\ at_oper false x o) <->
      (exists m o, In (m, Some o) (i_ops i) /\ stays exc inc (t_tags o) /\ at_oper false x (t_oper o))).
    { induction G as [|[m o] [m' o'] a b [E H] G IH]; [split; [intros (o & [] & _)|intros (m & o & [] & _)]|]. cbn [fst snd] in *. cbn [map snd].
      split.
      - intros (q & [I|I] & A).
        + destruct o' as [o'|]; [|discriminate I]. injection I as <-. destruct o as [o|]; [|discriminate H].
          destruct H as [[Hs [= ->]]|[_ H]]; [|discriminate H]. exists m, o. split; [left; reflexivity|]. split; assumption.
        + destruct (proj1 IH (ex_intro _ q (conj I A))) as (n & z & J & Z). exists n, z. split; [right; exact J|exact Z].
      - intros (n & z & [I|I] & Z & A).
        + injection I as <- ->. destruct H as [[_ ->]|[N _]]; [|contradiction]. exists (t_oper z). split; [left; reflexivity|exact A].
        + destruct (proj2 IH (ex_intro _ n (ex_intro _ z (conj I (conj Z A))))) as (q & J & A'). exists q. split; [right; exact J|exact A']. }
    rewrite <- Ops. split.
    - intros A. inversion A as [r ps os I A'|o ps os I A']; subst; [left; exists r; split; assumption|right; exists o; split; assumption].
    - intros [(r & I & A)|(o & I & A)]; [eapply ai_param; eassumption|eapply ai_oper; eassumption]. }
  induction F as [|[l i] [l' i'] a b [E T] F IH]; [split; [intros (l & i & [] & _)|intros (l & i & [] & _)]|]. cbn [fst snd] in *. cbn [map fst snd].
  split.
  - intros (n & j & [I|I] & A).
    + injection I as <- <-. exists l, i. split; [left; reflexivity|]. apply (K i i' T), A.
    + destruct (proj1 IH (ex_intro _ n (ex_intro _ j (conj I A)))) as (c & q & J & Z). exists c, q. split; [right; exact J|exact Z].
  - intros (n & j & [I|I] & A).
    + injection I as <- <-. exists l', (plain_item i'). split; [left; reflexivity|]. apply (K i i' T), A.
    + destruct (proj2 IH (ex_intro _ n (ex_intro _ j (conj I A)))) as (c & q & J & Z). exists c, q. split; [right; exact J|exact Z].
Qed.

(** In use by what is left: security schemes, and what operations that stay and
    paths refer to, directly or through other components. *)
Inductive wanted (exc inc : list string) (d : tdoc) : kind -> string -> Prop :=
| wanted_security n : wanted exc inc d KSecurity n
| wanted_param k n l i r : In (l, i) (td_paths d) -> In (Some r) (i_params i) -> at_param false (addr k n) r -> wanted exc inc d k n
| wanted_oper k n l i m o : In (l, i) (td_paths d) -> In (m, Some o) (i_ops i) -> stays exc inc (t_tags o) ->
    at_oper false (addr k n) (t_oper o) -> wanted exc inc d k n
| wanted_comp k n k' n' : wanted exc inc d k' n' -> comp_at false (plain_doc d) k' n' (addr k n) -> wanted exc inc d k n.

Lemma comp_filter exc inc d k n x : methods_once d ->
  comp_at false (plain_doc (filterOperationsByTag exc inc d)) k n x <-> comp_at false (plain_doc d) k n x.
Proof. intros M. unfold comp_at, plain_doc. cbn [d_comps]. rewrite (proj1 (filter_exact exc inc d M)). reflexivity. Qed.
Lemma defines_filter exc inc d k n : methods_once d ->
  defines (plain_doc (filterOperationsByTag exc inc d)) k n <-> defines (plain_doc d) k n.
Proof. intros M. unfold defines, plain_doc. cbn [d_comps]. rewrite (proj1 (filter_exact exc inc d M)). reflexivity. Qed.

Lemma used_wanted exc inc d k n : methods_once d -> used (plain_doc (filterOperationsByTag exc inc d)) k n <-> wanted exc inc d k n.
Proof.
  intros M. split.
  - induction 1 as [n|k n A|k n k' n' _ IH A].
    + constructor.
    + apply (left_at exc inc d _ M) in A as (l & i & I & [(r & J & A)|(m & o & J & Z & A)]);
        [eapply wanted_param; eassumption|eapply wanted_oper; eassumption].
    + eapply wanted_comp; [exact IH|]. apply (comp_filter exc inc d _ _ _ M), A.
  - induction 1 as [n|k n l i r I J A|k n l i m o I J Z A|k n k' n' _ IH A].
    + constructor.
    + apply us_path, (left_at exc inc d _ M). exists l, i. split; [exact I|]. left. exists r. split; assumption.
    + apply us_path, (left_at exc inc d _ M). exists l, i. split; [exact I|]. right. exists m, o. repeat split; try assumption; apply Z.
    + eapply us_comp; [exact IH|]. apply (comp_filter exc inc d _ _ _ M), A.
Qed.

Lemma prepared_left exc inc d fuel d' : methods_once d -> prepare fuel exc inc false d = Ok d' ->
  (forall k n, defines (plain_doc d) k n -> wanted exc inc d k n -> defines d' k n) /\
  ((exists rank : kind -> string -> nat, forall k n k' n', comp_at false (plain_doc d) k' n' (addr k n) -> rank k' n' < rank k n) ->
   forall k n, defines d' k n <-> defines (plain_doc d) k n /\ wanted exc inc d k n).
Proof.
  intros M E. unfold prepare in E. split.
  - intros k n D W. apply (used_kept fuel _ d' k n E); [apply defines_filter; assumption|apply used_wanted; assumption].
  - intros [rank R] k n. rewrite (acyclic_exact fuel _ d' rank E) by (intros a b a' b' C; apply R, (comp_filter exc inc d _ _ _ M), C).
    rewrite (defines_filter exc inc d k n M), (used_wanted exc inc d k n M). reflexivity.
Qed.

Lemma prepared_unpruned exc inc d fuel : prepare fuel exc inc true d = Ok (plain_doc (filterOperationsByTag exc inc d)).
Proof. reflexivity. Qed.

Lemma prepared_total exc inc skip d fuel : size (plain_doc d) < fuel -> exists d', prepare fuel exc inc skip d = Ok d'.
Proof.
  intros L. unfold prepare. destruct skip; [eexists; reflexivity|]. apply prune_total.
  rewrite filter_eq. exact L.
Qed.

(** Filtering again changes nothing. *)
Lemma methods_filter exc inc d : methods_once d -> methods_once (filterOperationsByTag exc inc d).
Proof.
  intros M l i I. rewrite filter_eq in I. cbn [td_paths] in I. apply in_map_iff in I as ([l0 i0] & E & I). injection E as -> <-. cbn [snd].
  destruct (both_thinned exc inc i0 (M l i0 I)) as [_ F].
  replace (map fst (i_ops (both exc inc i0))) with (map fst (i_ops i0)); [exact (M l i0 I)|].
  clear - F. induction F as [|e e' a b [E _] F IH]; [reflexivity|]. cbn. rewrite E, IH. reflexivity.
Qed.
Lemma thinned_again exc inc i j k : thinned exc inc i j -> thinned exc inc j k -> k = j.
Proof.
  intros [_ F1] [P2 F2]. destruct j as [pj oj], k as [pk ok]. cbn [i_params i_ops] in *. subst pk. f_equal. revert ok F2.
  induction F1 as [|[m o] [m' o'] a b [E1 H1] F1 IH]; intros ok F2; inversion F2 as [|? [m2 o2] ? k' [E2 H2] F2']; subst; [reflexivity|].
  cbn [fst snd] in *. subst. rewrite (IH _ F2'). f_equal. f_equal. destruct o as [o|].
  - destruct H1 as [[Z ->]|[Z ->]]; [|exact H2]. destruct H2 as [[_ H2]|[N _]]; [exact H2|contradiction].
  - subst o'. exact H2.
Qed.
Lemma filter_again exc inc d : methods_once d ->
  filterOperationsByTag exc inc (filterOperationsByTag exc inc d) = filterOperationsByTag exc inc d.
Proof.
  intros M. destruct (filter_exact exc inc d M) as [C F]. destruct (filter_exact exc inc _ (methods_filter exc inc d M)) as [C' F'].
  destruct (filterOperationsByTag exc inc (filterOperationsByTag exc inc d)) as [p2 c2]. destruct (filterOperationsByTag exc inc d) as [p1 c1].
  cbn [td_paths td_comps] in *. subst c2. f_equal. revert p2 F'.
  induction F as [|[l i] [l' i'] a b [E T] F IH]; intros p2 F'; inversion F' as [|? [l2 i2] ? k [E2 T2] F2]; subst; [reflexivity|].
  cbn [fst snd] in *. subst. rewrite (IH _ F2). f_equal. f_equal. exact (thinned_again exc inc i i' i2 T T2).
Qed.

(** The order in which Go goes through the methods makes no difference. *)
Lemma any_order ns ns' i : (forall n, In n ns <-> In n ns') ->
  fold_left (fun i n => setOperation n i) ns i = fold_left (fun i n => setOperation n i) ns' i.
Proof.
  intros H. rewrite !fold_set. f_equal. apply map_ext. intros [m o]. cbn [fst].
  replace (existsb (String.eqb m) ns') with (existsb (String.eqb m) ns); [reflexivity|].
  apply Bool.eq_iff_eq_true. rewrite !existsb_exists. split; intros (n & I & E); exists n; (split; [apply H, I|exact E]).
Qed.
Lemma include_order tags ex i names : (forall n, In n names <-> In n (names_to_remove i tags ex)) ->
  fold_left (fun i n => setOperation n i) names i = include_item tags ex i.
Proof. apply any_order. Qed.
