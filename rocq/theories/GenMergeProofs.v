(** Proofs about schemas composed with [allOf]. *)
From Verif Require Import Prelude Strings Version Util UtilProofs GenName GenNameProofs GenSpellProofs
  GenCommentProofs GenType GenTypeSpec GenTypeProofs.
Local Open Scope string_scope.
Local Open Scope list_scope.

(** *** What a composition should be *)

(** The flags two schemas must agree on. *)
Definition flags (b : base) : string * list bool :=
  (b_format b, [b_unique b; b_exmin b; b_exmax b; b_nullable b; b_readonly b; b_writeonly b; b_allowempty b]).
Definition types_agree (a b : base) : Prop := b_type a = "" \/ b_type b = "" \/ b_type a = b_type b.
Definition agree (a b : base) : Prop :=
  types_agree a b /\ flags a = flags b /\ b_default a = false /\ b_default b = false.

(** The schema of a name: the last one given, if any. *)
Definition latest (k : string) (first : list (string * sref)) (parts : list schema) : option sref :=
  fold_left (fun d s => match lookup k (s_props s) with Some x => Some x | None => d end) parts (lookup k first).
Definition last_addl (first : option sref) (parts : list schema) : option sref :=
  fold_left (fun d s => match s_addl s with Some x => Some x | None => d end) parts first.
Definition all_oneOf (first : option (list sref)) (parts : list schema) : option (list sref) :=
  fold_left (fun d s => append_opt d (s_oneOf s)) parts first.

(** At most one schema has additional properties. *)
Definition one_addl (l : list schema) : Prop := length (filter hasAdditional l) <= 1.

(** The base of the composition: of the parts only the enums and the required
    names are used. *)
Definition merged_base (b : base) (parts : list schema) : base :=
  mkBase (b_type b) (b_format b) "" (b_enum b ++ flat_map (fun s => b_enum (s_base s)) parts)
    (b_required b ++ flat_map (fun s => b_required (s_base s)) parts)
    false (b_nullable b) (b_readonly b) (b_writeonly b) false false
    (b_unique b) (b_exmin b) (b_exmax b) (b_allowempty b).

Definition is_map {A} (m : list (string * A)) : Prop := NoDup (map fst m).

(** *** Maps *)

Lemma put_map {A} k (v : A) m : is_map m -> is_map (put k v m).
Proof.
  unfold is_map. intros N.
  assert (K : forall m : list (string * A), forall x, In x (map fst (put k v m)) -> x = k \/ In x (map fst m)).
  { clear. intros m. induction m as [|[a b] r IH]; intros x; cbn; [intros [<-|[]]; auto|].
    destruct (String.eqb_spec k a) as [E|E]; cbn; [subst a; intros [<-|H]; auto|].
    intros [<-|H]; [auto|]. destruct (IH x H); auto. }
  induction m as [|[a b] r IH]; cbn; [constructor; [intros []|constructor]|].
  cbn in N. inversion N as [|? ? N1 N2]; subst. destruct (String.eqb_spec k a) as [E|E]; cbn.
  - subst a. constructor; assumption.
  - constructor; [|apply IH, N2]. intros H. destruct (K r a H) as [Q|Q]; [subst; apply E; reflexivity|exact (N1 Q)].
Qed.

Lemma put_all {A} (l : list (string * A)) : is_map l -> forall m, is_map m ->
  is_map (fold_left (fun m kv => put (fst kv) (snd kv) m) l m) /\
  forall k, lookup k (fold_left (fun m kv => put (fst kv) (snd kv) m) l m)
            = match lookup k l with Some x => Some x | None => lookup k m end.
Proof.
  unfold is_map. induction l as [|[a v] l IH]; intros N m M; [split; [exact M|reflexivity]|].
  cbn [map fst] in N. inversion N as [|? ? N1 N2]; subst. cbn [fold_left fst snd].
  destruct (IH N2 (put a v m) (put_map a v m M)) as [H1 H2]. split; [exact H1|]. intros k. rewrite H2.
  cbn [lookup]. destruct (String.eqb_spec k a) as [E|E].
  - subst k. rewrite lookup_put_same. destruct (lookup a l) eqn:L; [|reflexivity]. exfalso. apply N1.
    clear - L. induction l as [|[x y] l IH]; [discriminate|]. cbn in *. destruct (String.eqb_spec a x); [left; congruence|]. right. auto.
  - rewrite (lookup_put_other a k v m) by congruence. reflexivity.
Qed.

Lemma in_lookup {A} (l : list (string * A)) k x : is_map l -> In (k, x) l -> lookup k l = Some x.
Proof.
  unfold is_map. induction l as [|[a v] l IH]; intros N I; [destruct I|]. cbn [map fst] in N. inversion N as [|? ? N1 N2]; subst.
  cbn [lookup]. destruct I as [I|I].
  - injection I as -> ->. rewrite String.eqb_refl. reflexivity.
  - destruct (String.eqb_spec k a) as [E|E]; [|apply IH; assumption]. subst a. exfalso. apply N1. apply in_map_iff. exists (k, x). auto.
Qed.
Lemma lookup_in {A} (l : list (string * A)) k x : lookup k l = Some x -> In (k, x) l.
Proof.
  induction l as [|[a v] l IH]; cbn; [discriminate|]. destruct (String.eqb_spec k a) as [E|E].
  - intros H. injection H as ->. left. congruence.
  - intros H. right. apply IH, H.
Qed.

(** *** One step *)

Lemma eqb_ne a : negb (String.eqb a "") = false -> a = "".
Proof. destruct (String.eqb_spec a ""); [auto|discriminate]. Qed.
Lemma xorb_no a b : xorb a b = false <-> a = b.
Proof. destruct a, b; cbn; split; congruence. Qed.

Definition addl_both (s1 s2 : schema) : bool := hasAdditional s1 && hasAdditional s2.

Lemma merge_flat_ok one s1 s2 : agree (s_base s1) (s_base s2) -> addl_both s1 s2 = false ->
  merge_flat one s1 s2 =
  Ok (Sch (merged_base (s_base s1) [s2])
        (fold_left (fun m kv => put (fst kv) (snd kv) m) (s_props s2)
           (fold_left (fun m kv => put (fst kv) (snd kv) m) (s_props s1) []))
        None (last_addl (s_addl s1) [s2]) (append_opt (s_allOf s1) (s_allOf s2)) None one).
Proof.
  intros [T [F [D1 D2]]] A. unfold merge_flat. unfold addl_both in A.
  unfold flags in F. injection F as F0 F1 F2 F3 F4 F5 F6 F7.
  assert (TT : negb (String.eqb (b_type (s_base s1)) "") && negb (String.eqb (b_type (s_base s2)) "")
               && negb (String.eqb (b_type (s_base s1)) (b_type (s_base s2))) = false).
  { destruct T as [T|[T|T]]; rewrite T; rewrite ?String.eqb_refl; cbn; rewrite ?andb_false_r; reflexivity. }
  rewrite TT, F0, String.eqb_refl, D1, D2, F1, F2, F3, F4, F5, F6, F7, !xorb_nilpotent, A. cbn [negb orb].
  unfold merged_base. cbn [flat_map]. rewrite !app_nil_r, F1, F2, F3, F4, F5, F6, F7, F0. reflexivity.
Qed.

Lemma merge_flat_only one s1 s2 m : merge_flat one s1 s2 = Ok m ->
  agree (s_base s1) (s_base s2) /\ addl_both s1 s2 = false.
Proof.
  unfold merge_flat. intros H.
  repeat match type of H with
         | (if ?c then Err _ else _) = _ => let E := fresh "E" in destruct c eqn:E; [discriminate|]
         end.
  split; [|assumption]. split; [|split; [|split]].
  - unfold types_agree. destruct (String.eqb_spec (b_type (s_base s1)) ""); [auto|].
    destruct (String.eqb_spec (b_type (s_base s2)) ""); [auto|].
    destruct (String.eqb_spec (b_type (s_base s1)) (b_type (s_base s2))); [auto|discriminate].
  - destruct (String.eqb_spec (b_format (s_base s1)) (b_format (s_base s2))) as [Q|Q]; [|discriminate].
    rewrite xorb_no in *. unfold flags. congruence.
  - match goal with Q : (b_default _ || b_default _) = false |- _ => apply orb_false_iff in Q; tauto end.
  - match goal with Q : (b_default _ || b_default _) = false |- _ => apply orb_false_iff in Q; tauto end.
Qed.

Section Loop.
Variable env : string -> schema.

Definition parts_of (l : list sref) : list schema := map (value env) l.

Lemma last_has s1 s2 b p i al an on :
  b_has b = false -> hasAdditional (Sch b p i (last_addl (s_addl s1) [s2]) al an on) = true ->
  hasAdditional s1 || hasAdditional s2 = true.
Proof.
  unfold hasAdditional. cbn [s_base s_addl]. intros ->. unfold last_addl. cbn [fold_left].
  destruct (s_addl s2); [rewrite !orb_true_r; reflexivity|]. destruct (s_addl s1); [intros _; destruct (b_has (s_base s1)); reflexivity|discriminate].
Qed.

Lemma one_tail s1 s2 m l : (hasAdditional m = true -> hasAdditional s1 || hasAdditional s2 = true) ->
  one_addl (s1 :: s2 :: l) -> one_addl (m :: l).
Proof.
  unfold one_addl. cbn [filter]. intros H. destruct (hasAdditional m).
  - specialize (H eq_refl). destruct (hasAdditional s1), (hasAdditional s2); try discriminate; cbn [length]; lia.
  - destruct (hasAdditional s1), (hasAdditional s2); cbn [length]; lia.
Qed.

Lemma merged_twice b s l : merged_base (merged_base b [s]) l = merged_base b (s :: l).
Proof.
  unfold merged_base. cbn [b_type b_format b_enum b_required b_nullable b_readonly b_writeonly b_unique b_exmin b_exmax b_allowempty flat_map].
  rewrite !app_nil_r, !app_assoc. reflexivity.
Qed.

(** Parts that are no compositions themselves. *)
Lemma merge_all l : forall acc r, s_allOf acc = None ->
  Forall (fun s => s_allOf s = None /\ agree (s_base acc) (s_base s) /\ is_map (s_props s)) (parts_of (r :: l)) ->
  is_map (s_props acc) -> one_addl (acc :: parts_of (r :: l)) ->
  exists P, is_map P /\ (forall k, lookup k P = latest k (s_props acc) (parts_of (r :: l))) /\
    forall mergeAll, merge_loop env mergeAll acc (r :: l) =
    Ok (Sch (merged_base (s_base acc) (parts_of (r :: l))) P None (last_addl (s_addl acc) (parts_of (r :: l))) None None
          (all_oneOf (s_oneOf acc) (parts_of (r :: l)))).
Proof.
  induction l as [|q l IH]; intros acc r A F M O; cbn [parts_of map] in *; fold parts_of in *.
  - inversion F as [|? ? [F1 [F2 F3]] _]; subst.
    destruct (put_all (s_props acc) M [] (NoDup_nil _)) as [M1 L1].
    destruct (put_all (s_props (value env r)) F3 _ M1) as [M2 L2].
    eexists. split; [exact M2|]. split.
    + intros k. rewrite L2. unfold latest. cbn [fold_left]. destruct (lookup k (s_props (value env r))); [reflexivity|].
      rewrite L1. cbn [lookup]. destruct (lookup k (s_props acc)); reflexivity.
    + intros mergeAll. cbn [merge_loop]. unfold mergeOpenapi. rewrite A, F1. cbn [bind]. rewrite merge_flat_ok; [rewrite A, F1; reflexivity|exact F2|].
      unfold one_addl in O. cbn [filter] in O. unfold addl_both. destruct (hasAdditional acc), (hasAdditional (value env r)); cbn [length] in O; try reflexivity; lia.
  - inversion F as [|? ? [F1 [F2 F3]] F4]; subst.
    destruct (put_all (s_props acc) M [] (NoDup_nil _)) as [M1 L1].
    destruct (put_all (s_props (value env r)) F3 _ M1) as [M2 L2].
    set (P1 := fold_left (fun m kv => put (fst kv) (snd kv) m) (s_props (value env r))
                 (fold_left (fun m kv => put (fst kv) (snd kv) m) (s_props acc) [])) in *.
    set (acc' := Sch (merged_base (s_base acc) [value env r]) P1 None (last_addl (s_addl acc) [value env r]) None None
                   (append_opt (s_oneOf acc) (s_oneOf (value env r)))).
    destruct (IH acc' q) as [P [MP [LP E]]].
    + reflexivity.
    + eapply Forall_impl; [|exact F4]. intros s [G1 [G2 G3]]. split; [exact G1|]. split; [|exact G3].
      destruct G2 as [T [FL [D1 D2]]]. split; [exact T|]. split; [exact FL|]. split; [reflexivity|exact D2].
    + exact M2.
    + eapply one_tail; [|exact O]. apply last_has. reflexivity.
    + exists P. split; [exact MP|]. split.
      * intros k. rewrite LP. unfold latest. cbn [fold_left parts_of map]. unfold acc'. cbn [s_props]. rewrite L2, L1. cbn [lookup].
        destruct (lookup k (s_props (value env r))), (lookup k (s_props acc)); reflexivity.
      * intros mergeAll. cbn [merge_loop]. unfold mergeOpenapi at 1. rewrite A, F1. cbn [bind].
        rewrite merge_flat_ok; [|exact F2|].
        -- rewrite A, F1. cbn [append_opt because bind]. fold P1. fold acc'.
           change (merge_loop env mergeAll acc' (q :: l) = Ok (Sch (merged_base (s_base acc) (value env r :: parts_of (q :: l))) P None
             (last_addl (s_addl acc) (value env r :: parts_of (q :: l))) None None (all_oneOf (s_oneOf acc) (value env r :: parts_of (q :: l))))).
           rewrite E. unfold acc'. cbn [s_base s_addl s_oneOf]. rewrite merged_twice. reflexivity.
        -- unfold one_addl in O. cbn [filter] in O. unfold addl_both.
           destruct (hasAdditional acc), (hasAdditional (value env r)); cbn [length] in O; try reflexivity; lia.
Qed.

(** Compositions that succeed have parts that agree. *)
Lemma merge_agree mergeAll l : forall acc m, s_allOf acc = None -> Forall (fun s => s_allOf s = None) (parts_of l) ->
  merge_loop env mergeAll acc l = Ok m -> Forall (fun s => agree (s_base acc) (s_base s)) (parts_of l).
Proof.
  induction l as [|r l IH]; intros acc m A F H; [constructor|]. cbn [parts_of map] in *. inversion F as [|? ? F1 F2]; subst.
  cbn [merge_loop] in H. unfold mergeOpenapi in H at 1. rewrite A, F1 in H. cbn [bind] in H.
  destruct (merge_flat _ acc (value env r)) as [m1| | |] eqn:E; cbn [because bind] in H; try discriminate.
  destruct (merge_flat_only _ _ _ _ E) as [G1 G2]. constructor; [exact G1|].
  rewrite merge_flat_ok in E by assumption. rewrite A, F1 in E. injection E as <-.
  eapply IH in H; [|reflexivity|exact F2]. eapply Forall_impl; [|exact H].
  intros s [T [FL [D1 D2]]]. split; [exact T|]. split; [exact FL|]. split; [apply G1|exact D2].
Qed.
End Loop.

(** *** The Go type *)

Section Go.
Variable u : unicode.
Variable env : string -> schema.

Lemma latest_in k x first parts : latest k first parts = Some x ->
  In (k, x) first \/ exists s, In s parts /\ In (k, x) (s_props s).
Proof.
  unfold latest. revert first. assert (G : forall d, fold_left (fun d s => match lookup k (s_props s) with Some x => Some x | None => d end) parts d = Some x ->
    d = Some x \/ exists s, In s parts /\ In (k, x) (s_props s)).
  { induction parts as [|s parts IH]; intros d H; [left; exact H|]. cbn [fold_left] in H. destruct (IH _ H) as [Q|[t [Q1 Q2]]].
    - destruct (lookup k (s_props s)) eqn:L; [|left; exact Q]. injection Q as ->. right. exists s. split; [left; reflexivity|apply lookup_in, L].
    - right. exists t. split; [right; exact Q1|exact Q2]. }
  intros first H. destruct (G _ H) as [Q|Q]; [left; apply lookup_in, Q|right; exact Q].
Qed.
Lemma last_addl_in x first parts : last_addl first parts = Some x ->
  first = Some x \/ exists s, In s parts /\ s_addl s = Some x.
Proof.
  unfold last_addl. revert first. induction parts as [|s parts IH]; intros d H; [left; exact H|]. cbn [fold_left] in H.
  destruct (IH _ H) as [Q|[t [Q1 Q2]]].
  - destruct (s_addl s) eqn:L; [|left; exact Q]. injection Q as ->. right. exists s. split; [left; reflexivity|exact L].
  - right. exists t. split; [right; exact Q1|exact Q2].
Qed.

Lemma elements_append a b : elements (append_opt a b) = elements a ++ elements b.
Proof. destruct a as [a|], b as [[|x b]|]; reflexivity. Qed.
Lemma oneOf_all first parts :
  elements (all_oneOf first parts) = elements first ++ flat_map (fun t => elements (s_oneOf t)) parts.
Proof.
  unfold all_oneOf. revert first. induction parts as [|s parts IH]; intros first; [cbn; rewrite app_nil_r; reflexivity|].
  cbn [fold_left flat_map]. rewrite IH, elements_append, app_assoc. reflexivity.
Qed.

(** A composition whose first part is inline and whose parts agree is the type
    of the merged schema; of the unions only [oneOf] is merged. *)
Lemma compose b props items addl part rest any one path :
  path_ok path -> let s := Sch b props items addl (Some (Inl part :: rest)) any one in
  let parts := parts_of env (Inl part :: rest) in
  objectlike b = true ->
  simple (Sch b props None addl None None one) -> (forall t, In t parts -> simple t) ->
  is_map props -> (forall t, In t parts -> agree b (s_base t) /\ is_map (s_props t)) ->
  one_addl (Sch b props items addl None any one :: parts) ->
  exists P one', is_map P /\ (forall k, lookup k P = latest k props parts) /\
  elements one' = elements one ++ flat_map (fun t => elements (s_oneOf t)) parts /\
  let m := Sch (merged_base b parts) P None (last_addl addl parts) None None one' in
  forall n, depth m <= n ->
  exists g, generateGoSchema u env (S n) (Some (Inl s)) path = Ok (with_oapi (Some s) g) /\ good u env path (Inl m) g.
Proof.
  intros PO s parts OL SB SP MP AG OA.
  assert (SB' := SB). cbn [simple] in SB'. destruct SB' as [_ [_ [HO [_ [HA [HP HT]]]]]]. rewrite simple_props in HP.
  rewrite simple_elements in HO.
  assert (NC : forall t, In t parts -> s_allOf t = None /\ simple_union (s_oneOf t) /\ (forall p, In p (s_props t) -> simple_ref (snd p))
                 /\ match s_addl t with None => True | Some r => simple_ref r end).
  { intros t I. specialize (SP t I). destruct t as [tb tp ti ta tal tan ton]. cbn [simple] in SP.
    destruct SP as [-> [_ [TO [_ [TA [TP _]]]]]]. rewrite simple_props in TP. rewrite simple_elements in TO.
    cbn [s_allOf s_oneOf s_props s_addl]. auto. }
  destruct (merge_all env rest (Sch b props items addl None any one) (Inl part)) as [P [IM [LP ML]]].
  { reflexivity. }
  { apply Forall_forall. intros t I. destruct (AG t I). split; [apply NC, I|]. auto. }
  { exact MP. } { exact OA. }
  exists P, (all_oneOf one parts). split; [exact IM|]. split; [exact LP|]. split; [apply oneOf_all|]. intros m.
  assert (SM : simple_ref (Inl m)).
  { cbn [simple_ref]. unfold m. cbn [simple]. split; [reflexivity|]. split; [exact I|]. split.
    { rewrite simple_elements. intros r I. rewrite oneOf_all in I. apply in_app_iff in I. destruct I as [I|I]; [apply HO, I|].
      apply in_flat_map in I. destruct I as [t [Q I]]. destruct (NC t Q) as [_ [Z _]]. apply Z, I. }
    split; [exact I|]. split.
    - destruct (last_addl addl parts) as [x|] eqn:LA; [|exact I]. destruct (last_addl_in _ _ _ LA) as [Q|[t [Q1 Q2]]].
      + rewrite Q in HA. exact HA.
      + destruct (NC t Q1) as [_ [_ [_ Z]]]. rewrite Q2 in Z. exact Z.
    - split; [|left; exact OL]. rewrite simple_props. intros [k x] I. cbn [snd].
      pose proof (in_lookup P k x IM I) as L. rewrite LP in L. destruct (latest_in k x props parts L) as [Q|[t [Q1 Q2]]].
      + apply (HP (k, x) Q).
      + destruct (NC t Q1) as [_ [_ [Z _]]]. apply (Z (k, x) Q2). }
  intros n D. destruct (gen_good u env n (Inl m) path PO SM D) as [g [E G]]. exists g. split; [|exact G].
  unfold s. cbn [generateGoSchema ref_of]. unfold isGoTypeReference at 1. cbn [String.eqb negb andb value].
  unfold gen_schema. cbn [s_base s_allOf s_props allof_loop ref_of String.eqb bind]. rewrite ML. cbn [bind s_oneOf].
  fold m. cbn [s_addl s_base]. fold parts. fold m. rewrite E. reflexivity.
Qed.
End Go.
