(** Proofs about [assignable]. *)
From Verif Require Import Prelude CueFrag CueSem CueProofs Assign AssignSem.
Local Open Scope string_scope.
Local Open Scope list_scope.

Lemma k_eqb_eq : forall a b, k_eqb a b = true <-> a = b.
Proof.
  intros [a1 a2 a3 a4 a5 a6 a7 a8] [b1 b2 b3 b4 b5 b6 b7 b8]. unfold k_eqb. cbn.
  rewrite !andb_true_iff, !Bool.eqb_true_iff. split.
  - intros [[[[[[[-> ->] ->] ->] ->] ->] ->] ->]. reflexivity.
  - intro H. inversion H. subst. tauto.
Qed.

Lemma k_eqb_refl : forall a, k_eqb a a = true.
Proof. intro a. apply k_eqb_eq. reflexivity. Qed.

Lemma k_or_bottom : forall k, k_or k k_bottom = k.
Proof. intros []. unfold k_or. cbn. rewrite !orb_false_r. reflexivity. Qed.

Lemma no_null_or : forall a b, no_null (k_or a b) = k_or (no_null a) (no_null b).
Proof. reflexivity. Qed.

(** *** The encoding of Go types *)

Definition wrapn (k : nat) (v : val) : val :=
  match k with
  | O => v
  | S _ => VOr (repeat (true, VAtom ANull) k ++ [(false, v)])
  end.

Fixpoint core (g : gty) : val :=
  match g with
  | GSlice g => VList [] (Some (encode g))
  | GMap g => VStruct [] (Some (encode g))
  | GPtr g => core g
  | _ => encode g
  end.

Fixpoint nulls (g : gty) : nat :=
  match g with
  | GSlice _ | GMap _ => 1
  | GPtr g => S (nulls g)
  | _ => 0
  end.

Definition is_or (v : val) : bool := match v with VOr _ => true | _ => false end.

Lemma core_no_or : forall g, is_or (core g) = false.
Proof. induction g; try reflexivity; exact IHg. Qed.

Lemma null_or_wrap : forall k v, is_or v = false -> null_or (wrapn k v) = wrapn (S k) v.
Proof. intros [|k] v H; [destruct v; try discriminate; reflexivity|reflexivity]. Qed.

Lemma encode_wrap : forall g, encode g = wrapn (nulls g) (core g).
Proof.
  induction g; try reflexivity.
  cbn [encode nulls core]. rewrite IHg. apply null_or_wrap. apply core_no_or.
Qed.

Lemma existsb_repeat : forall {A} (f : A -> bool) x k,
  existsb f (repeat x k) = (Nat.ltb 0 k && f x).
Proof. intros A f x k. induction k as [|k IH]; [reflexivity|]. cbn. rewrite IH. destruct (f x), k; reflexivity. Qed.

Lemma flat_map_repeat_single : forall (f : bool * val -> list val) x y k,
  f x = [y] -> flat_map f (repeat x k) = repeat y k.
Proof. intros f x y k H. induction k as [|k IH]; [reflexivity|]. cbn. rewrite H, IH. reflexivity. Qed.

Lemma strip_wrap : forall k v, is_or v = false -> subs v (VAtom ANull) = false -> is_null_val v = false ->
  stripLeadNull (wrapn k v) = v.
Proof.
  intros [|k] v Hor Hn Hi.
  - cbn. unfold stripLeadNull. destruct v; try discriminate; reflexivity.
  - unfold stripLeadNull, wrapn. cbn [expr].
    assert (E : expr_kept (repeat (true, VAtom ANull) (S k) ++ [(false, v)]) = repeat (VAtom ANull) (S k) ++ [v]).
    { unfold expr_kept. rewrite flat_map_app. f_equal.
      apply flat_map_repeat_single. rewrite existsb_app, existsb_repeat. cbn [fst snd existsb].
      rewrite Hn. rewrite !andb_false_r. reflexivity. }
    rewrite E. rewrite app_length, repeat_length. cbn [List.length].
    replace (Nat.ltb 1 (S k + 1)) with true by (symmetry; apply Nat.ltb_lt; lia).
    assert (F : find (fun x => negb (is_null_val x)) (repeat (VAtom ANull) (S k) ++ [v]) = Some v).
    { generalize (S k). intro m. induction m as [|m IH]; [cbn; rewrite Hi; reflexivity|exact IH]. }
    rewrite F. reflexivity.
Qed.

Lemma kind_wrap : forall k v,
  no_null (kind (wrapn k v)) = no_null (kind v).
Proof.
  intros [|k] v; [reflexivity|]. unfold wrapn. cbn [kind]. generalize (S k). intro m.
  induction m as [|m IH]; cbn [repeat app fold_right].
  - cbn. rewrite k_or_bottom. reflexivity.
  - rewrite no_null_or, IH. destruct (no_null (kind v)) eqn:E. reflexivity.
Qed.

(** *** Scalars *)

(** Go types of one basic kind, and the value that stands for them. *)
Definition scalar_go (g : gty) : bool :=
  match g with GString | GBool | GBytes | GInt _ _ | GBigInt => true | _ => false end.

Lemma cover_iff : forall g y, scalar_go g = true -> doc_go g -> scalar_part y = true ->
  (subs (encode g) y = true <-> forall a, inst y (DAtom a) = true -> holds g a = true).
Proof.
  intros g y Hg Hd Hy. split.
  - intros H a Ha. pose proof (subs_sound _ _ _ H Ha) as Hi.
    destruct g; try discriminate; cbn in Hi |- *; destruct a; try discriminate; try reflexivity.
    exact Hi.
  - intro H. destruct y as [| |a|t|lo' hi'| | |]; try discriminate.
    + specialize (H a). cbn in H. rewrite (proj2 (atom_eqb_eq a a) eq_refl) in H. specialize (H eq_refl).
      destruct g; try discriminate; cbn in H |- *; destruct a; try discriminate; try reflexivity.
      exact H.
    + assert (W : forall a, type_has t a = true -> holds g a = true) by exact H.
      destruct g as [| | | |lo hi| | | | | | |]; try discriminate; cbn.
      * destruct t; try reflexivity; exfalso;
          first [specialize (W (ABool true) eq_refl)|specialize (W (AInt 0) eq_refl)
                |specialize (W (AFloat "") eq_refl)|specialize (W (ABytes "") eq_refl)]; discriminate.
      * destruct t; try reflexivity; exfalso;
          first [specialize (W (AString "") eq_refl)|specialize (W (AInt 0) eq_refl)
                |specialize (W (AFloat "") eq_refl)|specialize (W (ABytes "") eq_refl)]; discriminate.
      * destruct t; try reflexivity; exfalso;
          first [specialize (W (AString "") eq_refl)|specialize (W (AInt 0) eq_refl)
                |specialize (W (AFloat "") eq_refl)|specialize (W (ABool true) eq_refl)]; discriminate.
      * exfalso. cbn in Hd. destruct t.
        -- specialize (W (ABool true) eq_refl). discriminate.
        -- specialize (W (AInt (hi + 1)) eq_refl). cbn in W. apply andb_true_iff in W. rewrite !Z.leb_le in W. lia.
        -- specialize (W (AFloat "") eq_refl). discriminate.
        -- specialize (W (AFloat "") eq_refl). discriminate.
        -- specialize (W (AString "") eq_refl). discriminate.
        -- specialize (W (ABytes "") eq_refl). discriminate.
      * destruct t; try reflexivity; exfalso;
          first [specialize (W (AString "") eq_refl)|specialize (W (ABool true) eq_refl)
                |specialize (W (AFloat "") eq_refl)|specialize (W (ABytes "") eq_refl)]; discriminate.
    + assert (W : forall z, in_lo lo' z = true -> in_hi hi' z = true -> holds g (AInt z) = true).
      { intros z H1 H2. apply H. cbn. rewrite H1, H2. reflexivity. }
      assert (X : exists z, in_lo lo' z = true /\ in_hi hi' z = true).
      { destruct lo' as [l|], hi' as [h|]; cbn in Hy |- *.
        - exists l. rewrite Z.leb_refl. auto.
        - exists l. rewrite Z.leb_refl. auto.
        - exists h. rewrite Z.leb_refl. auto.
        - exists 0%Z. auto. }
      destruct X as [z [X1 X2]].
      destruct g as [| | | |lo hi| | | | | | |]; try discriminate; cbn;
        try (specialize (W z X1 X2); discriminate); try reflexivity.
      cbn in Hd, W. apply andb_true_iff. split.
      * destruct lo' as [l|]; cbn.
        -- assert (Hl : in_hi hi' l = true).
           { destruct hi' as [h|]; [|reflexivity]. cbn in Hy |- *. exact Hy. }
           specialize (W l). cbn in W. rewrite Z.leb_refl in W. specialize (W eq_refl Hl).
           apply andb_true_iff in W. tauto.
        -- exfalso. assert (Hl : in_hi hi' (Z.min z (lo - 1)) = true).
           { destruct hi' as [h|]; [|reflexivity]. cbn in X2 |- *. apply Z.leb_le in X2. apply Z.leb_le. lia. }
           specialize (W _ eq_refl Hl). apply andb_true_iff in W. rewrite !Z.leb_le in W. lia.
      * destruct hi' as [h|]; cbn.
        -- assert (Hl : in_lo lo' h = true).
           { destruct lo' as [l|]; [|reflexivity]. cbn in Hy |- *. exact Hy. }
           specialize (W h Hl). cbn in W. rewrite Z.leb_refl in W. specialize (W eq_refl).
           apply andb_true_iff in W. tauto.
        -- exfalso. assert (Hl : in_lo lo' (Z.max z (hi + 1)) = true).
           { destruct lo' as [l|]; [|reflexivity]. cbn in X1 |- *. apply Z.leb_le in X1. apply Z.leb_le. lia. }
           specialize (W _ Hl eq_refl). apply andb_true_iff in W. rewrite !Z.leb_le in W. lia.
Qed.

Lemma part_not_or : forall y, scalar_part y = true -> is_or y = false /\ y <> VBot.
Proof. intros []; cbn; intro H; try discriminate; split; try reflexivity; discriminate. Qed.

Lemma subs_null : forall y, scalar_part y = true -> subs (VAtom ANull) y = is_null_val y.
Proof. intros [] H; try discriminate; reflexivity. Qed.

Lemma subs_wrapn : forall k v y, scalar_part y = true ->
  subs (wrapn k v) y = subs v y || (Nat.ltb 0 k && is_null_val y).
Proof.
  intros [|k] v y Hy; [cbn; rewrite orb_false_r; reflexivity|].
  unfold wrapn. destruct (part_not_or y Hy) as [Ho Hb].
  rewrite subs_or_l; [|intros ys ->; discriminate|exact Hb].
  rewrite existsb_app, existsb_repeat. cbn [existsb fst snd]. rewrite orb_false_r.
  rewrite (subs_null y Hy). apply orb_comm.
Qed.

(** The disjuncts that the subsumption without [cue.Raw] looks at. *)
Definition kept (s : val) : list val :=
  match s with
  | VOr ds => flat_map (fun d : bool * val => if fst d || negb (existsb fst ds) then [snd d] else []) ds
  | _ => [s]
  end.

Lemma kept_parts : forall s y, In y (kept s) -> In y (parts s).
Proof.
  intros s y H. destruct s; try exact H. cbn in *. apply in_flat_map in H. destruct H as [d [Hd H]].
  destruct (fst d || negb (existsb fst ds)); [|destruct H]. destruct H as [<-|[]].
  apply in_map. exact Hd.
Qed.

Lemma unmarked_existsb : forall ds, unmarked ds = true -> existsb fst ds = false.
Proof.
  induction ds as [|[m v] ds IH]; intro H; [reflexivity|]. cbn in H. apply andb_true_iff in H.
  destruct H as [Hm H]. cbn. destruct m; [discriminate|]. apply IH. exact H.
Qed.

Lemma kept_unmarked : forall s, (match s with VOr ds => unmarked ds = true | _ => True end) -> kept s = parts s.
Proof.
  intros [] H; try reflexivity. cbn. rewrite (unmarked_existsb _ H). clear H.
  induction ds as [|d ds IH]; [reflexivity|]. cbn [flat_map map negb]. rewrite orb_true_r. cbn [app]. f_equal.
  exact IH.
Qed.

Lemma strip_part : forall y, scalar_part y = true -> strip y = y.
Proof. intros [] H; try discriminate; reflexivity. Qed.

Lemma subs_default_kept : forall k v s, is_or v = false -> v <> VTop -> scalar_sch s = true ->
  subs_default (wrapn k v) s = forallb (subs (wrapn k v)) (kept s).
Proof.
  intros k v s Hv Ht Hs. unfold scalar_sch in Hs. apply andb_true_iff in Hs. destruct Hs as [Hs _].
  unfold subs_default. destruct s as [| |a|t|lo hi|ds|es r|fs r]; try discriminate.
  - cbn [kept forallb strip]. rewrite andb_true_r. reflexivity.
  - cbn [kept forallb strip]. rewrite andb_true_r. reflexivity.
  - cbn [kept forallb strip]. rewrite andb_true_r. reflexivity.
  - cbn [strip kept]. cbn [parts] in Hs. rewrite forallb_forall in Hs.
    set (b := existsb fst ds).
    assert (E : forall f : val -> bool, (forall d, In d ds -> f (strip (snd d)) = f (snd d)) ->
      forallb (fun y : bool * val => f (snd y))
        (flat_map (fun d : bool * val => if fst d || negb b then [(false, strip (snd d))] else []) ds)
      = forallb f (flat_map (fun d : bool * val => if fst d || negb b then [snd d] else []) ds)).
    { intros f Hf. clearbody b. clear Hs. induction ds as [|d ds IH]; [reflexivity|]. cbn [flat_map].
      rewrite !forallb_app. rewrite IH by (intros e He; apply Hf; right; exact He). f_equal.
      destruct (fst d || negb b); [|reflexivity]. cbn. rewrite (Hf d (or_introl eq_refl)). reflexivity. }
    assert (Hp : forall d, In d ds -> strip (snd d) = snd d).
    { intros d Hd. apply strip_part. apply Hs. apply in_map. exact Hd. }
    destruct k as [|k].
    + cbn [wrapn]. rewrite subs_or_r by (intros xs ->; discriminate).
      rewrite <- (E (subs v)) by (intros d Hd; rewrite (Hp d Hd); reflexivity).
      destruct v; try reflexivity. contradiction.
    + unfold wrapn. rewrite <- (E (subs (VOr (repeat (true, VAtom ANull) (S k) ++ [(false, v)]))))
        by (intros d Hd; rewrite (Hp d Hd); reflexivity).
      cbn [subs].
      assert (Hin : forall y, In y (flat_map (fun d : bool * val => if fst d || negb b then [(false, strip (snd d))] else []) ds) ->
        fst y = false /\ scalar_part (snd y) = true).
      { intros y Hy. apply in_flat_map in Hy. destruct Hy as [d [Hd Hy]].
        destruct (fst d || negb b); [|destruct Hy]. destruct Hy as [<-|[]]. cbn. split; [reflexivity|].
        rewrite (Hp d Hd). apply Hs. apply in_map. exact Hd. }
      revert Hin. generalize (flat_map (fun d : bool * val => if fst d || negb b then [(false, strip (snd d))] else []) ds).
      intro ys. generalize (repeat (true, VAtom ANull) (S k) ++ [(false, v)]). intros xs Hin.
      induction ys as [|y ys IH]; [reflexivity|]. cbn [forallb].
      rewrite IH by (intros z Hz; apply Hin; right; exact Hz). f_equal.
      destruct (Hin y (or_introl eq_refl)) as [Hm Hy]. destruct (part_not_or _ Hy) as [Ho Hb].
      change (existsb (fun x : bool * val => subs (snd x) (snd y) && (negb (fst y) || fst x || negb (existsb fst xs))) xs
              = subs (VOr xs) (snd y)).
      rewrite subs_or_l; [|intros zs E'; rewrite E' in Ho; discriminate|exact Hb].
      rewrite Hm. cbn. induction xs as [|x xs IHx] in Hm |- *; [reflexivity|].
      cbn. rewrite andb_true_r. f_equal.
      clear. induction xs as [|x xs IHx]; [reflexivity|]. cbn. rewrite andb_true_r. f_equal. exact IHx.
Qed.

Lemma kind_parts : forall s, is_or s = true \/ True -> kind s = fold_right (fun y k => k_or (kind y) k) k_bottom (parts s).
Proof.
  intros s _. destruct s; cbn [parts fold_right]; try (rewrite k_or_bottom; reflexivity).
  cbn [kind]. induction ds as [|d ds IH]; [reflexivity|]. cbn. rewrite IH. reflexivity.
Qed.

Definition null_kind : kinds := k_of_atom ANull.

Lemma kind_cover : forall g y, scalar_go g = true -> scalar_part y = true ->
  subs (encode g) y = true -> kind y = kind (encode g).
Proof.
  intros g y Hg Hy H. destruct g; try discriminate; destruct y as [| |a|t|lo' hi'| | |]; try discriminate;
    try (destruct a; try discriminate; reflexivity); try (destruct t; try discriminate; reflexivity); reflexivity.
Qed.

Lemma fold_two : forall K ys, no_null K = K ->
  (forall y, In y ys -> kind y = K \/ kind y = null_kind) ->
  (exists y, In y ys /\ kind y = K) ->
  no_null (fold_right (fun y k => k_or (kind y) k) k_bottom ys) = K.
Proof.
  intros K ys HK Hall Hex.
  assert (G : no_null (fold_right (fun y k => k_or (kind y) k) k_bottom ys) = K \/
              (no_null (fold_right (fun y k => k_or (kind y) k) k_bottom ys) = k_bottom /\
               forall y, In y ys -> kind y = null_kind)).
  { clear Hex. induction ys as [|y ys IH]; [right; split; [reflexivity|intros y []]|].
    cbn [fold_right]. rewrite no_null_or.
    destruct IH as [E|[E Hn]]; [intros z Hz; apply Hall; right; exact Hz| |];
      destruct (Hall y (or_introl eq_refl)) as [Ey|Ey]; rewrite Ey, E.
    - left. rewrite HK. destruct K. unfold k_or. cbn. rewrite !orb_diag. reflexivity.
    - left. destruct K. reflexivity.
    - left. rewrite k_or_bottom. exact HK.
    - right. split; [reflexivity|]. intros z [<-|Hz]; auto. }
  destruct G as [E|[E Hn]]; [exact E|]. exfalso. destruct Hex as [y [Hy Ey]]. rewrite (Hn y Hy) in Ey.
  subst K. discriminate.
Qed.

Lemma kind_bit : forall (pr : kinds -> bool) ys,
  (forall a b, pr (k_or a b) = pr a || pr b) -> pr k_bottom = false ->
  pr (fold_right (fun y k => k_or (kind y) k) k_bottom ys) = existsb (fun y => pr (kind y)) ys.
Proof.
  intros pr ys H1 H2. induction ys as [|y ys IH]; [exact H2|]. cbn. rewrite H1, IH. reflexivity.
Qed.

Lemma inst_parts : forall s d, scalar_sch s = true ->
  (inst s d = true <-> exists y, In y (parts s) /\ inst y d = true).
Proof.
  intros s d _. destruct s; cbn [parts]; try (split; [intro H; eexists; split; [left; reflexivity|exact H]
    |intros [y [[<-|[]] H]]; exact H]).
  cbn [inst]. rewrite existsb_exists. split.
  - intros [x [Hx H]]. exists (snd x). split; [apply in_map; exact Hx|exact H].
  - intros [y [Hy H]]. apply in_map_iff in Hy. destruct Hy as [x [<- Hx]]. eauto.
Qed.

Lemma part_member : forall y, scalar_part y = true -> exists a, inst y (DAtom a) = true.
Proof.
  intros [| |a|t|lo hi| | |] H; try discriminate.
  - exists a. cbn. apply atom_eqb_eq. reflexivity.
  - destruct t; [exists (ABool true)|exists (AInt 0)|exists (AFloat "")|exists (AInt 0)|exists (AString "")|exists (ABytes "")]; reflexivity.
  - destruct lo as [l|], hi as [h|]; cbn in H |- *.
    + exists (AInt l). rewrite Z.leb_refl. exact H.
    + exists (AInt l). rewrite Z.leb_refl. reflexivity.
    + exists (AInt h). rewrite Z.leb_refl. reflexivity.
    + exists (AInt 0). reflexivity.
Qed.

Lemma part_null : forall y, scalar_part y = true -> inst y (DAtom ANull) = true -> y = VAtom ANull.
Proof.
  intros [| |a|t|lo hi| | |] H Hi; try discriminate.
  - destruct a; try discriminate. reflexivity.
  - destruct t; discriminate.
Qed.

Lemma is_null_spec : forall y, is_null_val y = true <-> y = VAtom ANull.
Proof. intros [| |a| | | | |]; split; intro H; try discriminate; destruct a; try discriminate; reflexivity. Qed.

Definition accept (k : nat) (v : val) (y : val) : bool := subs v y || (Nat.ltb 0 k && is_null_val y).

Lemma holds_null : forall g, scalar_go g = true -> holds g ANull = false.
Proof. intros []; intro H; try discriminate; reflexivity. Qed.

(** Every value of the schema fits when every disjunct is accepted. *)
Lemma accept_iff : forall g k s, scalar_go g = true -> doc_go g -> scalar_sch s = true ->
  (forallb (accept k (encode g)) (parts s) = true <->
   forall a, inst s (DAtom a) = true -> holds g a = true \/ (Nat.ltb 0 k = true /\ a = ANull)).
Proof.
  intros g k s Hg Hd Hs. pose proof Hs as Hs'. unfold scalar_sch in Hs'. apply andb_true_iff in Hs'.
  destruct Hs' as [Hp _]. rewrite forallb_forall in Hp. rewrite forallb_forall. split.
  - intros H a Ha. apply inst_parts in Ha; [|exact Hs]. destruct Ha as [y [Hy Ha]].
    specialize (H y Hy). unfold accept in H. apply orb_true_iff in H. destruct H as [H|H].
    + left. revert a Ha. apply cover_iff; auto.
    + apply andb_true_iff in H. destruct H as [Hk H]. apply is_null_spec in H. subst y.
      right. split; [exact Hk|]. cbn in Ha. destruct a; try discriminate. reflexivity.
  - intros H y Hy. unfold accept. destruct (is_null_val y) eqn:En.
    + apply is_null_spec in En. subst y. destruct (H ANull) as [C|[Hk _]].
      * apply inst_parts; [exact Hs|]. exists (VAtom ANull). split; [exact Hy|reflexivity].
      * rewrite (holds_null g Hg) in C. discriminate.
      * rewrite Hk. apply orb_true_r.
    + apply orb_true_iff. left. apply (cover_iff g y Hg Hd (Hp y Hy)). intros a Ha.
      destruct (H a) as [E|[_ ->]]; [apply inst_parts; [exact Hs|]; eauto|exact E|].
      rewrite (part_null y (Hp y Hy) Ha) in En. discriminate.
Qed.

Lemma nonnull_iff : forall s, scalar_sch s = true ->
  ((exists a, a <> ANull /\ inst s (DAtom a) = true) <->
   exists y, In y (parts s) /\ is_null_val y = false).
Proof.
  intros s Hs. pose proof Hs as Hs'. unfold scalar_sch in Hs'. apply andb_true_iff in Hs'.
  destruct Hs' as [Hp _]. rewrite forallb_forall in Hp. split.
  - intros [a [Ha H]]. apply inst_parts in H; [|exact Hs]. destruct H as [y [Hy H]]. exists y.
    split; [exact Hy|]. destruct (is_null_val y) eqn:E; [|reflexivity]. apply is_null_spec in E. subst.
    cbn in H. destruct a; try discriminate. contradiction.
  - intros [y [Hy En]]. destruct (part_member y (Hp y Hy)) as [a Ha]. exists a. split.
    + intros ->. rewrite (part_null y (Hp y Hy) Ha) in En. discriminate.
    + apply inst_parts; [exact Hs|]. eauto.
Qed.

Lemma kind_nonnull_part : forall y, scalar_part y = true -> kind y = null_kind -> is_null_val y = true.
Proof.
  intros [| |a|t|lo hi| | |] H E; try discriminate; [destruct a|destruct t]; try discriminate; reflexivity.
Qed.

(** The kinds agree when every disjunct is accepted and one is not null. *)
Lemma kinds_agree : forall g k s, scalar_go g = true -> scalar_sch s = true ->
  forallb (accept k (encode g)) (parts s) = true ->
  (no_null (kind s) = kind (encode g) <-> exists y, In y (parts s) /\ is_null_val y = false).
Proof.
  intros g k s Hg Hs Ha. pose proof Hs as Hs'. unfold scalar_sch in Hs'. apply andb_true_iff in Hs'.
  destruct Hs' as [Hp _]. rewrite forallb_forall in Hp, Ha.
  assert (HK : forall y, In y (parts s) -> kind y = kind (encode g) \/ kind y = null_kind).
  { intros y Hy. specialize (Ha y Hy). unfold accept in Ha. apply orb_true_iff in Ha. destruct Ha as [E|E].
    - left. apply kind_cover; auto.
    - right. apply andb_true_iff in E. destruct E as [_ E]. apply is_null_spec in E. subst. reflexivity. }
  rewrite (kind_parts s (or_intror I)). split.
  - intro E. destruct (existsb (fun y => negb (is_null_val y)) (parts s)) eqn:X.
    + apply existsb_exists in X. destruct X as [y [Hy X]]. exists y. split; [exact Hy|].
      destruct (is_null_val y); [discriminate|reflexivity].
    + exfalso. assert (A : forall y, In y (parts s) -> kind y = null_kind).
      { intros y Hy. destruct (is_null_val y) eqn:En; [apply is_null_spec in En; subst; reflexivity|].
        exfalso. rewrite <- not_true_iff_false in X. apply X. apply existsb_exists. exists y. rewrite En. auto. }
      assert (B : no_null (fold_right (fun y k => k_or (kind y) k) k_bottom (parts s)) = k_bottom).
      { clear - A. induction (parts s) as [|y ys IH]; [reflexivity|]. cbn [fold_right].
        rewrite no_null_or, IH, (A y (or_introl eq_refl)) by (intros z Hz; apply A; right; exact Hz). reflexivity. }
      rewrite B in E. destruct g; discriminate.
  - intros [y [Hy En]]. apply fold_two; [destruct g; try discriminate; reflexivity|exact HK|].
    exists y. split; [exact Hy|]. destruct (HK y Hy) as [E|E]; [exact E|].
    rewrite (kind_nonnull_part y (Hp y Hy) E) in En. discriminate.
Qed.

(** *** The result of [check] on scalars *)

Lemma check_S : forall n g s p, check (S n) g s p = check_body (check n) g s p.
Proof. reflexivity. Qed.

Definition ok_iff (o : outcome (list (path * amsg))) (P : Prop) : Prop :=
  exists w, o = Ok w /\ (w = [] <-> P).

Lemma ok_iff_err : forall e (P : Prop), ~ P -> ok_iff (Ok [e]) P.
Proof. intros e P H. exists [e]. split; [reflexivity|]. split; [discriminate|intro; contradiction]. Qed.

Lemma ok_iff_nil : forall P : Prop, P -> ok_iff (Ok []) P.
Proof. intros P H. exists []. split; [reflexivity|]. tauto. Qed.

Lemma ok_iff_ext : forall o (P Q : Prop), (P <-> Q) -> ok_iff o P -> ok_iff o Q.
Proof. intros o P Q H [w [E Hw]]. exists w. split; [exact E|]. rewrite Hw. exact H. Qed.

(** The first test of [check]. *)
Lemma check_kind : forall n k v s p, kind v <> k_top -> no_null (kind v) = kind v ->
  no_null (kind s) <> kind v -> kind v <> k_any ->
  exists e, check (S n) (wrapn k v) s p = Ok [e].
Proof.
  intros n k v s p H1 H2 H3 H4. rewrite check_S. unfold check_body. rewrite kind_wrap, H2.
  destruct (k_eqb (no_null (kind s)) (kind v)) eqn:E; [apply k_eqb_eq in E; contradiction|].
  destruct (k_eqb (kind v) k_any) eqn:E'; [apply k_eqb_eq in E'; contradiction|].
  cbn. eauto.
Qed.

Lemma scalar_kind_flat : forall s, scalar_sch s = true -> k_list (kind s) = false /\ k_struct (kind s) = false.
Proof.
  intros s Hs. unfold scalar_sch in Hs. apply andb_true_iff in Hs. destruct Hs as [Hp _].
  rewrite forallb_forall in Hp. rewrite (kind_parts s (or_intror I)).
  rewrite (kind_bit k_list) by (intros; reflexivity). rewrite (kind_bit k_struct) by (intros; reflexivity).
  split; apply not_true_iff_false; intro H; apply existsb_exists in H; destruct H as [y [Hy H]]; specialize (Hp y Hy);
    destruct y as [| |a|t|lo hi| | |]; try discriminate; try (destruct a; discriminate); destruct t; discriminate.
Qed.

Lemma union_kind : forall ds, existsb (fun d : bool * val => match snd d with VStruct _ _ => true | _ => false end) ds = true ->
  k_struct (kind (VOr ds)) = true.
Proof.
  intros ds H. rewrite (kind_parts _ (or_intror I)), (kind_bit k_struct) by (intros; reflexivity).
  apply existsb_exists in H. destruct H as [d [Hd H]]. apply existsb_exists. exists (snd d).
  split; [apply in_map; exact Hd|]. destruct (snd d); try discriminate. reflexivity.
Qed.

Lemma union_not_scalar : forall ds, existsb (fun d : bool * val => match snd d with VStruct _ _ => true | _ => false end) ds = true ->
  scalar_sch (VOr ds) = false.
Proof.
  intros ds H. apply not_true_iff_false. intro Hs. apply scalar_kind_flat in Hs.
  rewrite (union_kind ds H) in Hs. destruct Hs. discriminate.
Qed.

Lemma rules_scalar_iff : forall g nul s, scalar_go g = true ->
  (rules nul g s <->
   scalar_sch s = true /\ (exists a, a <> ANull /\ inst s (DAtom a) = true)
   /\ forall a, inst s (DAtom a) = true -> holds g a = true \/ (nul = true /\ a = ANull)).
Proof. intros [] nul s H; try discriminate; reflexivity. Qed.

Lemma scalar_go_facts : forall g, scalar_go g = true ->
  kind (encode g) <> k_top /\ no_null (kind (encode g)) = kind (encode g) /\ kind (encode g) <> k_any
  /\ is_or (encode g) = false /\ subs (encode g) (VAtom ANull) = false /\ is_null_val (encode g) = false
  /\ encode g <> VTop /\ single_scalar (kind (encode g)) = true /\ kind (encode g) <> k_of_list.
Proof.
  intros g H. destruct g; try discriminate;
    repeat match goal with |- _ /\ _ => split end; try reflexivity; discriminate.
Qed.

(** Values without integers: a kind that equals that of the Go type says it all. *)
Lemma kind_says : forall g y, scalar_go g = true -> k_int (kind (encode g)) = false ->
  scalar_part y = true -> kind y = kind (encode g) -> subs (encode g) y = true.
Proof.
  intros g y Hg Hi Hy E. destruct g; try discriminate; destruct y as [| |a|t|lo hi| | |]; try discriminate;
    try (destruct a; try discriminate; reflexivity); destruct t; try discriminate; reflexivity.
Qed.

Lemma part_kind_some : forall y, scalar_part y = true -> k_null (kind y) = false ->
  existsb (fun b => b) [k_bool (kind y); k_int (kind y); k_float (kind y); k_string (kind y); k_bytes (kind y)] = true.
Proof.
  intros [| |a|t|lo hi| | |] H E; try discriminate; try (destruct a; try discriminate; reflexivity);
    [destruct t; reflexivity|reflexivity].
Qed.

Lemma kind_all_same : forall g s, scalar_go g = true -> k_int (kind (encode g)) = false -> scalar_sch s = true ->
  k_null (kind s) = false -> no_null (kind s) = kind (encode g) ->
  forall y, In y (parts s) -> kind y = kind (encode g).
Proof.
  intros g s Hg Hi Hs Hn E y Hy. pose proof (scalar_kind_flat s Hs) as [Hl Hst].
  unfold scalar_sch in Hs. apply andb_true_iff in Hs. destruct Hs as [Hp _]. rewrite forallb_forall in Hp.
  specialize (Hp y Hy).
  assert (B : forall pr : kinds -> bool, (forall a b, pr (k_or a b) = pr a || pr b) -> pr k_bottom = false ->
              pr (kind s) = false -> pr (kind y) = false).
  { intros pr H1 H2 H3. rewrite (kind_parts s (or_intror I)), (kind_bit pr) in H3 by assumption.
    destruct (pr (kind y)) eqn:X; [|reflexivity]. rewrite <- not_true_iff_false in H3. exfalso. apply H3.
    apply existsb_exists. eauto. }
  pose proof (B k_null (fun a b => eq_refl) eq_refl Hn) as Yn.
  pose proof (B k_list (fun a b => eq_refl) eq_refl Hl) as Yl.
  pose proof (B k_struct (fun a b => eq_refl) eq_refl Hst) as Ys.
  pose proof (part_kind_some y Hp Yn) as Hsome.
  pose proof (B k_bool (fun a b => eq_refl) eq_refl) as Yb.
  pose proof (B k_int (fun a b => eq_refl) eq_refl) as Yi.
  pose proof (B k_float (fun a b => eq_refl) eq_refl) as Yf.
  pose proof (B k_string (fun a b => eq_refl) eq_refl) as Yst.
  pose proof (B k_bytes (fun a b => eq_refl) eq_refl) as Yby. clear B.
  destruct (kind s) as [s1 s2 s3 s4 s5 s6 s7 s8]. destruct (kind y) as [y1 y2 y3 y4 y5 y6 y7 y8].
  cbn in *. destruct g; try discriminate; cbn in E |- *; inversion E; subst;
    rewrite ?Yb, ?Yi, ?Yf, ?Yst, ?Yby in * by reflexivity; cbn in Hsome; rewrite ?orb_false_r in Hsome; subst; reflexivity.
Qed.

Lemma check_scal : forall g n k s p, scalar_go g = true -> doc_go g -> plain s ->
  ok_iff (check (S n) (wrapn k (encode g)) s p) (rules (Nat.ltb 0 k) g s).
Proof.
  intros g n k s p Hg Hd Hp. apply (ok_iff_ext _ _ _ (iff_sym (rules_scalar_iff g _ s Hg))).
  destruct (scalar_go_facts g Hg) as [F1 [F2 [F3 [F4 [F5 [F6 [F7 [F8 F9]]]]]]]].
  assert (NO : scalar_sch s = false -> no_null (kind s) <> kind (encode g) ->
    ok_iff (check (S n) (wrapn k (encode g)) s p)
      (scalar_sch s = true /\ (exists a, a <> ANull /\ inst s (DAtom a) = true)
       /\ forall a, inst s (DAtom a) = true -> holds g a = true \/ (Nat.ltb 0 k = true /\ a = ANull))).
  { intros H1 H2. destruct (check_kind n k (encode g) s p F1 F2 H2 F3) as [e E]. rewrite E.
    apply ok_iff_err. rewrite H1. intros [C _]. discriminate. }
  inversion Hp as [|s' Hs Hm|fs rest ND HF|es r HF Hr Hlen|ds Hu Hlen Hl Hex]; subst.
  - apply NO; [reflexivity|]. destruct g; try discriminate; cbn; discriminate.
  - clear NO.
    pose proof (accept_iff g k s Hg Hd Hs) as HA.
    pose proof (nonnull_iff s Hs) as HN.
    rewrite check_S. unfold check_body. rewrite kind_wrap, F2.
    rewrite (strip_wrap k (encode g) F4 F5 F6).
    replace (k_eqb (kind (encode g)) k_any) with false
      by (symmetry; apply not_true_iff_false; intro C; apply k_eqb_eq in C; contradiction).
    cbn [negb]. rewrite andb_true_r.
    destruct (k_eqb (no_null (kind s)) (kind (encode g))) eqn:EK; cbn [negb].
    + apply k_eqb_eq in EK.
      replace (k_eqb (no_null (kind s)) k_of_list) with false
        by (symmetry; apply not_true_iff_false; intro C; apply k_eqb_eq in C; rewrite EK in C; contradiction).
      rewrite EK at 1. rewrite F8.
      assert (SD : subs_default (if k_null (kind s) then wrapn k (encode g) else encode g) s
                   = forallb (accept k (encode g)) (kept s)).
      { pose proof Hs as Hs'. unfold scalar_sch in Hs'. apply andb_true_iff in Hs'. destruct Hs' as [Hpp _].
        rewrite forallb_forall in Hpp.
        assert (Hk : forall y, In y (kept s) -> scalar_part y = true).
        { intros y Hy. apply Hpp. apply kept_parts. exact Hy. }
        assert (FE : forall (f h : val -> bool) l, (forall y, In y l -> f y = h y) -> forallb f l = forallb h l).
        { intros f h l. induction l as [|x l IH]; intro H; [reflexivity|]. cbn.
          rewrite (H x (or_introl eq_refl)), IH by (intros y Hy; apply H; right; exact Hy). reflexivity. }
        destruct (k_null (kind s)) eqn:Kn.
        - rewrite (subs_default_kept k (encode g) s F4 F7 Hs). apply FE. intros y Hy.
          apply subs_wrapn. auto.
        - change (subs_default (wrapn 0 (encode g)) s = forallb (accept k (encode g)) (kept s)).
          rewrite (subs_default_kept 0 (encode g) s F4 F7 Hs). apply FE. intros y Hy.
          cbn [wrapn]. unfold accept. replace (is_null_val y) with false; [rewrite andb_false_r, orb_false_r; reflexivity|].
          symmetry. apply not_true_iff_false. intro C. apply is_null_spec in C. subst y.
          rewrite (kind_parts s (or_intror I)), (kind_bit k_null) in Kn by (intros; reflexivity).
          rewrite <- not_true_iff_false in Kn. apply Kn. apply existsb_exists. exists (VAtom ANull).
          split; [apply kept_parts; exact Hy|reflexivity]. }
      unfold checkscalar. rewrite SD.
      assert (KP : forallb (accept k (encode g)) (kept s) = forallb (accept k (encode g)) (parts s)).
      { destruct s as [| |a|t|lo hi|ds|es r|fs r]; try reflexivity. destruct Hm as [Hm|[Hi Hn]].
        - rewrite (kept_unmarked (VOr ds) Hm). reflexivity.
        - assert (Hi' : k_int (kind (encode g)) = false) by (rewrite <- EK; exact Hi).
          assert (A : forall y, In y (parts (VOr ds)) -> accept k (encode g) y = true).
          { intros y Hy. unfold accept. rewrite (kind_says g y Hg Hi'); [reflexivity| |].
            - unfold scalar_sch in Hs. apply andb_true_iff in Hs. destruct Hs as [Hpp _].
              rewrite forallb_forall in Hpp. auto.
            - apply (kind_all_same g (VOr ds) Hg Hi' Hs Hn EK y Hy). }
          transitivity true; [|symmetry]; apply forallb_forall; intros y Hy; apply A; auto.
          apply kept_parts. exact Hy. }
      rewrite KP. destruct (forallb (accept k (encode g)) (parts s)) eqn:EA.
      * apply ok_iff_nil. split; [exact Hs|]. split; [|apply HA; reflexivity].
        apply HN. apply (kinds_agree g k s Hg Hs EA). exact EK.
      * apply ok_iff_err. intros [_ [_ C]]. apply HA in C. discriminate.
    + apply ok_iff_err. intros [_ [C1 C2]]. apply HA in C2. apply HN in C1.
      apply (kinds_agree g k s Hg Hs C2) in C1. rewrite C1, k_eqb_refl in EK. discriminate.
  - apply NO; [reflexivity|]. destruct g; try discriminate; cbn; discriminate.
  - apply NO; [reflexivity|]. destruct g; try discriminate; cbn; discriminate.
  - apply NO; [apply union_not_scalar; exact Hex|]. intro C.
    pose proof (union_kind ds Hex) as K. assert (K' : k_struct (no_null (kind (VOr ds))) = true) by exact K.
    rewrite C in K'. destruct g; discriminate.
Qed.

(** *** Induction on Go types *)

Section GtyInd.
Variable P : gty -> Prop.
Hypothesis Hleaf : forall g, (match g with GStruct _ | GSlice _ | GArray _ _ | GMap _ | GPtr _ => False | _ => True end) -> P g.
Hypothesis Hstruct : forall fs, Forall (fun f => P (snd f)) fs -> P (GStruct fs).
Hypothesis Hslice : forall g, P g -> P (GSlice g).
Hypothesis Harray : forall n g, P g -> P (GArray n g).
Hypothesis Hmap : forall g, P g -> P (GMap g).
Hypothesis Hptr : forall g, P g -> P (GPtr g).

Fixpoint gty_ind' (g : gty) : P g :=
  match g with
  | GStruct fs =>
      Hstruct fs ((fix go (fs : list (string * gty)) : Forall (fun f => P (snd f)) fs :=
        match fs with [] => Forall_nil _ | f :: t => Forall_cons f (gty_ind' (snd f)) (go t) end) fs)
  | GSlice g => Hslice g (gty_ind' g)
  | GArray n g => Harray n g (gty_ind' g)
  | GMap g => Hmap g (gty_ind' g)
  | GPtr g => Hptr g (gty_ind' g)
  | GAny => Hleaf GAny I | GString => Hleaf GString I | GBool => Hleaf GBool I | GBytes => Hleaf GBytes I
  | GInt lo hi => Hleaf (GInt lo hi) I | GBigInt => Hleaf GBigInt I | GNumber => Hleaf GNumber I
  end.
End GtyInd.

(** *** Sizes *)

Lemma vsize_pos : forall v, 1 <= vsize v.
Proof. intros []; cbn; lia. Qed.

Lemma list_sum_in : forall x l, In x l -> x <= list_sum l.
Proof.
  intros x l. unfold list_sum. induction l as [|y l IH]; intros []; cbn; [subst; lia|].
  specialize (IH H). lia.
Qed.

Lemma vsize_elem : forall e es r, In e es -> vsize e < vsize (VList es r).
Proof. intros e es r H. cbn [vsize]. pose proof (list_sum_in _ _ (in_map vsize _ _ H)). lia. Qed.

Lemma vsize_rest : forall es u, vsize u < vsize (VList es (Some u)).
Proof. intros es u. cbn [vsize]. lia. Qed.

Lemma vsize_field : forall f fs r, In f fs -> vsize (fval f) < vsize (VStruct fs r).
Proof.
  intros f fs r H. cbn [vsize].
  pose proof (list_sum_in _ _ (in_map (fun f : string * bool * val => vsize (snd f)) _ _ H)). unfold fval. lia.
Qed.

(** *** Lists *)

Lemma mutual_iff : forall a b, mutual a b = true <-> (subs_default a b = true /\ subs_default b a = true).
Proof. intros a b. unfold mutual. apply andb_true_iff. Qed.

Lemma same_type_cons : forall a b t, same_type (a :: b :: t) <->
  (mutual a b = true /\ same_type (b :: t)).
Proof. intros a b t. rewrite mutual_iff. cbn [same_type]. tauto. Qed.

Lemma elems_loop_some : forall r los lv,
  (same_type (lv :: r) <-> exists x, elems_loop los lv r = Some x).
Proof.
  induction r as [|e r IH]; intros los lv.
  - cbn. split; eauto.
  - rewrite same_type_cons. cbn [elems_loop]. destruct (mutual lv e).
    + rewrite (IH e e). split; [tauto|intro H; split; [reflexivity|exact H]].
    + split; [intros [C _]; discriminate|intros [x C]; discriminate].
Qed.

Lemma elems_loop_val : forall r los lv x, elems_loop los lv r = Some x ->
  x = ((match r with [] => los | _ => last r VBot end), last (lv :: r) VBot).
Proof.
  induction r as [|e r IH]; intros los lv x H.
  - cbn in H. inversion H. reflexivity.
  - cbn [elems_loop] in H. destruct (mutual lv e); [|discriminate]. apply IH in H. subst x.
    destruct r; reflexivity.
Qed.

Lemma same_type_snoc : forall r e u, same_type ((e :: r) ++ [u]) <->
  (same_type (e :: r) /\ mutual (last (e :: r) VBot) u = true).
Proof.
  induction r as [|f r IH]; intros e u.
  - cbn [app]. rewrite same_type_cons. cbn. tauto.
  - cbn [app]. rewrite same_type_cons. rewrite (IH f u : same_type (f :: r ++ [u]) <-> _).
    rewrite same_type_cons. change (last (e :: f :: r) VBot) with (last (f :: r) VBot). tauto.
Qed.

Lemma last_in : forall (l : list val) d, l <> [] -> In (last l d) l.
Proof.
  induction l as [|x l IH]; intros d H; [contradiction|]. destruct l as [|y l]; [left; reflexivity|].
  right. apply (IH d). discriminate.
Qed.

(** *** Structs *)

Section Loop.
Variable chk : val -> val -> path -> outcome (list (path * amsg)).

Lemma find_fst : forall {B} l (m : list (string * B)) x, find (fun y => String.eqb l (fst y)) m = Some x -> fst x = l /\ In x m.
Proof.
  intros B l m x H. apply find_some in H. destruct H as [Hi H]. apply String.eqb_eq in H. split; [symmetry|]; assumption.
Qed.

Lemma find_filter : forall {B} l l' (m : list (string * B)), l <> l' ->
  find (fun y => String.eqb l (fst y)) (filter (fun y => negb (String.eqb l' (fst y))) m)
  = find (fun y => String.eqb l (fst y)) m.
Proof.
  intros B l l' m H. induction m as [|x m IH]; [reflexivity|]. cbn.
  destruct (String.eqb_spec l' (fst x)) as [E|E]; cbn.
  - rewrite IH. destruct (String.eqb_spec l (fst x)); [congruence|reflexivity].
  - rewrite IH. reflexivity.
Qed.

Definition left_of (sfs : list (string * bool * val)) (gmap : list (string * val)) : list (string * val) :=
  filter (fun x => negb (existsb (String.eqb (fst x)) (map flabel sfs))) gmap.

Lemma filter_filter : forall {A} (f h : A -> bool) l, filter f (filter h l) = filter (fun x => h x && f x) l.
Proof.
  intros A f h l. induction l as [|x l IH]; [reflexivity|]. cbn. destruct (h x); cbn; [rewrite IH; reflexivity|exact IH].
Qed.

Lemma fields_loop_spec : forall p sfs gmap, NoDup (map flabel sfs) ->
  (forall f gv, In f sfs -> In (flabel f, gv) gmap ->
     exists w, chk gv (fval f) (p ++ [SField (flabel f)]) = Ok w) ->
  exists w, fields_loop chk p sfs gmap = Ok (w, left_of sfs gmap)
  /\ (w = [] <-> forall f, In f sfs -> exists gv,
        find (fun x => String.eqb (flabel f) (fst x)) gmap = Some (flabel f, gv)
        /\ chk gv (fval f) (p ++ [SField (flabel f)]) = Ok []).
Proof.
  intros p sfs. induction sfs as [|f sfs IH]; intros gmap ND Hc.
  - exists []. split; [|split; [intros _ f []|reflexivity]]. cbn. unfold left_of. cbn.
    assert (E : filter (fun _ : string * val => true) gmap = gmap)
      by (induction gmap as [|x m IHm]; [reflexivity|cbn; f_equal; apply IHm; intros g gv []]).
    rewrite E. reflexivity.
  - cbn [map] in ND. inversion ND as [|? ? Hn ND']. subst. cbn [fields_loop].
    destruct (find (fun x => String.eqb (flabel f) (fst x)) gmap) as [[l gv]|] eqn:Ef.
    + pose proof (find_fst _ _ _ Ef) as [El Hin]. cbn in El. subst l.
      destruct (Hc f gv (or_introl eq_refl) Hin) as [w0 E0]. rewrite E0. cbn [bind].
      destruct (IH (filter (fun x => negb (String.eqb (flabel f) (fst x))) gmap) ND') as [w [E Hw]].
      { intros f' gv' Hf' Hg'. apply filter_In in Hg'. destruct Hg' as [Hg' _].
        apply (Hc f' gv'); [right; exact Hf'|exact Hg']. }
      rewrite E. cbn [bind fst snd]. exists (w0 ++ w). split.
      * f_equal. f_equal. unfold left_of. rewrite filter_filter. apply filter_ext. intros x. cbn [map existsb].
        rewrite negb_orb, String.eqb_sym. reflexivity.
      * split.
        -- intro H. apply app_eq_nil in H. destruct H as [-> ->].
           intros f' [<-|Hf']; [exists gv; split; [exact Ef|exact E0]|].
           destruct (proj1 Hw eq_refl f' Hf') as [gv' [Eg Ec]]. exists gv'. split; [|exact Ec].
           rewrite find_filter in Eg; [exact Eg|]. intro C. apply Hn. rewrite <- C. apply in_map. exact Hf'.
        -- intro H. destruct (H f (or_introl eq_refl)) as [gv' [Eg Ec]]. rewrite Ef in Eg. inversion Eg. subst gv'.
           rewrite E0 in Ec. inversion Ec. subst w0. cbn. apply Hw. intros f' Hf'.
           destruct (H f' (or_intror Hf')) as [gv' [Eg' Ec']]. exists gv'. split; [|exact Ec'].
           rewrite find_filter; [exact Eg'|]. intro C. apply Hn. rewrite <- C. apply in_map. exact Hf'.
    + destruct (IH gmap ND') as [w [E Hw]].
      { intros f' gv' Hf' Hg'. apply (Hc f' gv'); [right; exact Hf'|exact Hg']. }
      rewrite E. cbn [bind fst snd]. eexists. split; [f_equal; f_equal|].
      * unfold left_of. apply filter_ext_in. intros x Hx. cbn [map existsb].
        destruct (String.eqb_spec (fst x) (flabel f)) as [C|C]; [|reflexivity]. exfalso.
        pose proof (find_none _ _ Ef x Hx) as N. cbn in N. rewrite C, String.eqb_refl in N. discriminate.
      * split; [discriminate|]. intro H. destruct (H f (or_introl eq_refl)) as [gv [Eg _]]. congruence.
Qed.
End Loop.

Lemma go_doc : forall fs, (fix go (fs : list (string * gty)) : Prop :=
            match fs with [] => True | f :: t => doc_go (snd f) /\ go t end) fs <-> Forall (fun f => doc_go (snd f)) fs.
Proof.
  induction fs as [|f fs IH]; [split; auto|]. rewrite Forall_cons_iff, <- IH. reflexivity.
Qed.

Lemma go_rules : forall (sfs : list (string * bool * val)) fs, (fix go (fs : list (string * gty)) : Prop :=
            match fs with
            | [] => True
            | f :: t => (forall o v, In (fst f, o, v) sfs -> rules false (snd f) v) /\ go t
            end) fs <-> Forall (fun f : string * gty => forall o v, In (fst f, o, v) sfs -> rules false (snd f) v) fs.
Proof.
  intros sfs. induction fs as [|f fs IH]; [split; auto|]. rewrite Forall_cons_iff, <- IH. reflexivity.
Qed.

Lemma rules_struct : forall nul fs s, rules nul (GStruct fs) s <->
  exists sfs rest, s = VStruct sfs rest
  /\ (forall l, In l (map fst fs) <-> In l (map flabel sfs))
  /\ Forall (fun f : string * gty => forall o v, In (fst f, o, v) sfs -> rules false (snd f) v) fs.
Proof.
  intros nul fs s. cbn [rules]. split; intros [sfs [rest [E [L R]]]]; exists sfs, rest; (split; [exact E|split; [exact L|]]);
    apply go_rules; exact R.
Qed.

(** *** The main statement *)

Lemma check_any : forall n k s p, check (S n) (wrapn k VTop) s p = Ok [].
Proof.
  intros n k s p. rewrite check_S. unfold check_body. rewrite kind_wrap. cbn [kind]. change (no_null k_top) with k_any.
  rewrite k_eqb_refl. cbn [negb]. rewrite andb_false_r. reflexivity.
Qed.

(** What [check] reduces to when the kinds agree. *)
Lemma check_same : forall n k v s p, is_or v = false -> subs v (VAtom ANull) = false -> is_null_val v = false ->
  no_null (kind v) = kind v -> kind v <> k_any -> no_null (kind s) = kind v ->
  check (S n) (wrapn k v) s p =
    if k_eqb (kind v) k_of_list then checklist (check n) v s p
    else if single_scalar (kind v) then checkscalar (if k_null (kind s) then wrapn k v else v) s p
    else if k_eqb (kind v) k_of_struct then
      if fst (expr s) then Ok [(p, MStructDisj)] else checkstruct (check n) v s p
    else if only_scalar (kind v) then Ok [(p, MMulti (kind v))] else Panic.
Proof.
  intros n k v s p H1 H2 H3 H4 H5 H6. rewrite check_S. unfold check_body. rewrite kind_wrap, (strip_wrap k v H1 H2 H3), H4, H6.
  rewrite k_eqb_refl. cbn [negb andb].
  replace (k_eqb (kind v) k_any) with false
    by (symmetry; apply not_true_iff_false; intro C; apply k_eqb_eq in C; contradiction).
  reflexivity.
Qed.

Lemma no_list_err : forall n k v s p, kind v = k_of_list -> no_null (kind s) <> k_of_list ->
  exists e, check (S n) (wrapn k v) s p = Ok [e].
Proof.
  intros n k v s p Hv Hs. apply check_kind; rewrite Hv; try discriminate; try reflexivity. exact Hs.
Qed.

Lemma no_struct_err : forall n k v s p, kind v = k_of_struct -> no_null (kind s) <> k_of_struct ->
  exists e, check (S n) (wrapn k v) s p = Ok [e].
Proof.
  intros n k v s p Hv Hs. apply check_kind; rewrite Hv; try discriminate; try reflexivity. exact Hs.
Qed.

Lemma plain_list : forall s, plain s -> no_null (kind s) = k_of_list ->
  exists es r, s = VList es r /\ Forall plain es /\ (forall u, r = Some u -> plain u) /\ (r = None -> List.length es <> 1).
Proof.
  intros s Hp E. inversion Hp as [|s' Hs Hm|fs rest ND HF|es r HF Hr Hlen|ds Hu Hlen Hl Hex]; subst.
  - discriminate.
  - exfalso. destruct (scalar_kind_flat s Hs) as [C _]. assert (X : k_list (no_null (kind s)) = false) by exact C.
    rewrite E in X. discriminate.
  - discriminate.
  - exists es, r. auto.
  - exfalso. assert (X : k_list (no_null (kind (VOr ds))) = false) by exact Hl. rewrite E in X. discriminate.
Qed.

Lemma plain_struct : forall s, plain s -> no_null (kind s) = k_of_struct ->
  (exists fs rest, s = VStruct fs rest /\ NoDup (map flabel fs) /\ Forall (fun f => plain (fval f)) fs)
  \/ (is_or s = true /\ fst (expr s) = true).
Proof.
  intros s Hp E. inversion Hp as [|s' Hs Hm|fs rest ND HF|es r HF Hr Hlen|ds Hu Hlen Hl Hex]; subst.
  - discriminate.
  - exfalso. destruct (scalar_kind_flat s Hs) as [_ C]. assert (X : k_struct (no_null (kind s)) = false) by exact C.
    rewrite E in X. discriminate.
  - left. exists fs, rest. auto.
  - discriminate.
  - right. split; [reflexivity|]. cbn [expr fst].
    assert (K : expr_kept ds = map snd ds).
    { unfold expr_kept. unfold unmarked in Hu. rewrite forallb_forall in Hu.
      assert (G : forall (h : bool * val -> bool) l, (forall x, In x l -> negb (fst x) = true) ->
        flat_map (fun d : bool * val => if fst d && h d then [] else [snd d]) l = map snd l).
      { intros h l. induction l as [|d l IHl]; intro Hm; [reflexivity|]. cbn [flat_map map].
        rewrite IHl by (intros x Hx; apply Hm; right; exact Hx).
        specialize (Hm d (or_introl eq_refl)). destruct (fst d); [discriminate|]. reflexivity. }
      apply (G (fun d => existsb (fun e : bool * val => negb (fst e) && subs (snd e) (snd d)) ds) ds Hu). }
    rewrite K, map_length. apply Nat.ltb_lt. lia.
Qed.

Lemma check_rules : forall g, doc_go g -> forall k n s p, plain s -> vsize s <= n ->
  ok_iff (check n (wrapn (k + nulls g) (core g)) s p) (rules (Nat.ltb 0 k) g s).
Proof.
  induction g as [g Hleaf|fs IH|g IH|m g IH|g IH|g IH] using gty_ind'; intros Hd k n s p Hp Hn;
    (destruct n as [|n]; [pose proof (vsize_pos s); lia|]).
  - destruct (scalar_go g) eqn:Eg.
    + replace (core g) with (encode g) by (destruct g; try discriminate; reflexivity).
      replace (nulls g) with 0 by (destruct g; try discriminate; reflexivity). rewrite Nat.add_0_r.
      apply check_scal; assumption.
    + destruct g; try discriminate; try contradiction.
      cbn [core encode nulls]. rewrite check_any. apply ok_iff_nil. exact I.
  - (* structs *)
    cbn [core nulls]. rewrite Nat.add_0_r. apply (ok_iff_ext _ _ _ (iff_sym (rules_struct (Nat.ltb 0 k) fs s))).
    cbn [doc_go] in Hd. destruct Hd as [NDg Hd]. apply (proj1 (go_doc fs)) in Hd.
    set (v := encode (GStruct fs)).
    assert (Kv : kind v = k_of_struct) by reflexivity.
    destruct (k_eqb (no_null (kind s)) k_of_struct) eqn:EK.
    + apply k_eqb_eq in EK.
      rewrite (check_same n k v s p); try reflexivity; try (rewrite Kv; discriminate); try (rewrite Kv; exact EK).
      rewrite Kv. change (k_eqb k_of_struct k_of_list) with false. change (single_scalar k_of_struct) with false.
      change (k_eqb k_of_struct k_of_struct) with true. cbn iota.
      destruct (plain_struct s Hp EK) as [[sfs [rest [-> [NDs HF]]]]|[Ho Hx]].
      * cbn [expr fst]. unfold checkstruct. cbn [fields default fst].
        change (fields v) with (Some (map (fun f : string * gty => (fst f, false, encode (snd f))) fs)).
        cbn iota beta.
        set (gmap := map (fun f => (flabel f, fval f)) (map (fun f : string * gty => (fst f, false, encode (snd f))) fs)).
        assert (Hgm : gmap = map (fun f => (fst f, encode (snd f))) fs).
        { unfold gmap. rewrite map_map. reflexivity. }
        rewrite Forall_forall in IH, Hd, HF.
        assert (CK : forall f sf p', In f fs -> In sf sfs ->
                  ok_iff (check n (encode (snd f)) (fval sf) p') (rules false (snd f) (fval sf))).
        { intros f sf p' Hf Hsf. rewrite encode_wrap.
          apply (IH f Hf (Hd f Hf) 0 n (fval sf) p' (HF sf Hsf)).
          pose proof (vsize_field sf sfs rest Hsf). lia. }
        destruct (fields_loop_spec (check n) p sfs gmap NDs) as [w [E Hw]].
        { intros sf gv Hsf Hgv. rewrite Hgm in Hgv. apply in_map_iff in Hgv. destruct Hgv as [f [Ef Hf]].
          injection Ef as E1 E2. rewrite <- E2. destruct (CK f sf (p ++ [SField (flabel sf)]) Hf Hsf) as [w [E _]]. exists w. exact E. }
        rewrite E. cbn [bind fst snd].
        eexists. split; [reflexivity|].
        assert (L : map (fun lv : string * val => ([SField (fst lv)], MAbsentSchema)) (left_of sfs gmap) = [] <->
                    forall l, In l (map fst fs) -> In l (map flabel sfs)).
        { split.
          - intros H l Hl. apply map_eq_nil in H.
            destruct (existsb (String.eqb l) (map flabel sfs)) eqn:X.
            + apply existsb_exists in X. destruct X as [x [Hx X]]. apply String.eqb_eq in X. subst. exact Hx.
            + exfalso. apply in_map_iff in Hl. destruct Hl as [f [<- Hf]].
              assert (C : In (fst f, encode (snd f)) (left_of sfs gmap)).
              { unfold left_of. apply filter_In. split.
                - rewrite Hgm. apply in_map_iff. exists f. auto.
                - cbn [fst]. rewrite X. reflexivity. }
              rewrite H in C. destruct C.
          - intro H. destruct (left_of sfs gmap) as [|x t] eqn:X; [reflexivity|]. exfalso.
            assert (C : In x (left_of sfs gmap)) by (rewrite X; left; reflexivity).
            unfold left_of in C. apply filter_In in C. destruct C as [Hx C]. rewrite Hgm in Hx.
            apply in_map_iff in Hx. destruct Hx as [f [<- Hf]]. cbn [fst] in C.
            apply negb_true_iff in C. rewrite <- not_true_iff_false in C. apply C. apply existsb_exists.
            exists (fst f). split; [apply H; apply in_map; exact Hf|apply String.eqb_refl]. }
        assert (FF : forall f, In f fs -> find (fun x => String.eqb (fst f) (fst x)) gmap = Some (fst f, encode (snd f))).
        { rewrite Hgm. clear -NDg. induction fs as [|f fs IH]; intros g Hg; [destruct Hg|].
          cbn [map] in *. inversion NDg as [|? ? Hn ND]. subst. cbn [find fst]. destruct Hg as [<-|Hg].
          - rewrite String.eqb_refl. reflexivity.
          - destruct (String.eqb_spec (fst g) (fst f)) as [C|C].
            + exfalso. apply Hn. rewrite <- C. apply in_map. exact Hg.
            + apply IH; assumption. }
        assert (FN : forall l gv, find (fun x => String.eqb l (fst x)) gmap = Some (l, gv) ->
                     exists f, In f fs /\ fst f = l /\ gv = encode (snd f)).
        { intros l gv H. apply find_fst in H. destruct H as [_ H]. rewrite Hgm in H. apply in_map_iff in H.
          destruct H as [f [Ef Hf]]. inversion Ef. exists f. auto. }
        split.
        -- intro H. apply app_eq_nil in H. destruct H as [-> H]. pose proof (proj1 L H) as H'. clear H. rename H' into H.
           pose proof (proj1 Hw eq_refl) as Hall. exists sfs, rest. split; [reflexivity|]. split.
           ++ intro l. split; [apply H|]. intro Hl. apply in_map_iff in Hl. destruct Hl as [sf [<- Hsf]].
              destruct (Hall sf Hsf) as [gv [Eg _]]. apply FN in Eg. destruct Eg as [f [Hf [<- _]]].
              apply in_map. exact Hf.
           ++ apply Forall_forall. intros f Hf o u Hu. destruct (Hall _ Hu) as [gv [Eg Ec]].
              cbn [flabel fst fval snd] in Eg, Ec. rewrite (FF f Hf) in Eg. inversion Eg. subst gv.
              destruct (CK f _ (p ++ [SField (fst f)]) Hf Hu) as [w [Ew Hw']]. cbn [fval snd] in Ew, Hw'.
              rewrite Ew in Ec. inversion Ec. subst w. apply Hw'. reflexivity.
        -- intros [sfs' [rest' [Es [Hl Hr]]]]. inversion Es. subst sfs' rest'.
           rewrite Forall_forall in Hr.
           rewrite (proj2 L) by (intros l Hin; apply Hl; exact Hin). rewrite app_nil_r.
           apply Hw. intros sf Hsf.
           assert (Hx : In (flabel sf) (map fst fs)) by (apply Hl; apply in_map; exact Hsf).
           apply in_map_iff in Hx. destruct Hx as [f [Ef Hf]]. exists (encode (snd f)).
           split; [rewrite <- Ef; apply FF; exact Hf|].
           destruct (CK f sf (p ++ [SField (flabel sf)]) Hf Hsf) as [w' [Ew Hw']]. rewrite Ew.
           f_equal. apply Hw'. destruct sf as [[l o] u]. cbn in Ef |- *. subst l. apply (Hr f Hf o u Hsf).
      * rewrite Hx. apply ok_iff_err. intros [sfs [rest [C _]]]. subst s. discriminate.
    + destruct (no_struct_err n k v s p Kv) as [e E].
      { intro C. rewrite C, k_eqb_refl in EK. discriminate. }
      rewrite E. apply ok_iff_err. intros [sfs [rest [C _]]]. subst s. discriminate.
  - (* slices *)
    cbn [core nulls rules]. cbn [doc_go] in Hd.
    set (v := VList [] (Some (encode g))).
    assert (Kv : kind v = k_of_list) by reflexivity.
    destruct (k_eqb (no_null (kind s)) k_of_list) eqn:EK.
    + apply k_eqb_eq in EK.
      rewrite (check_same n (k + 1) v s p); try reflexivity; try (rewrite Kv; discriminate); try (rewrite Kv; exact EK).
      rewrite Kv. change (k_eqb k_of_list k_of_list) with true. cbn iota.
      destruct (plain_list s Hp EK) as [es [r [-> [Hes [Hr Hlen]]]]].
      destruct r as [u|].
      * unfold checklist. cbn [default snd expr List.length Nat.ltb Nat.leb]. unfold checklist_body.
        cbn [len_concrete v Bool.eqb negb len_subsumes List.length Nat.leb list_elems any_index].
        assert (CU : ok_iff (check n (encode g) u (p ++ [SAny])) (rules false g u)).
        { rewrite encode_wrap. apply (IH Hd 0 n u (p ++ [SAny]) (Hr u eq_refl)).
          pose proof (vsize_rest es u). lia. }
        destruct es as [|e es].
        -- refine (ok_iff_ext _ _ _ _ CU). split.
           ++ intro H. exists [], u. split; [reflexivity|]. split; [exact I|exact H].
           ++ intros [es' [u' [E [_ H]]]]. inversion E. subst. exact H.
        -- destruct (elems_loop VBot e es) as [[los lv]|] eqn:EL.
           ++ pose proof (elems_loop_val _ _ _ _ EL) as EV. inversion EV as [[E1 E2]]. clear EV E1.
              assert (ST : same_type (e :: es)) by (apply (elems_loop_some es VBot e); eauto).
              destruct (mutual (last (e :: es) VBot) u) eqn:EM.
              ** change (match es with [] => e | _ :: _ => last es VBot end) with (last (e :: es) VBot). rewrite EM.
                 refine (ok_iff_ext _ _ _ _ CU). split.
                 --- intro H. exists (e :: es), u. split; [reflexivity|]. split; [|exact H].
                     apply same_type_snoc. split; assumption.
                 --- intros [es' [u' [E [_ H]]]]. inversion E. subst. exact H.
              ** change (match es with [] => e | _ :: _ => last es VBot end) with (last (e :: es) VBot). rewrite EM.
                 apply ok_iff_err. intros [es' [u' [E [H _]]]]. inversion E. subst.
                 apply same_type_snoc in H. destruct H as [_ H]. congruence.
           ++ apply ok_iff_err. intros [es' [u' [E [H _]]]]. inversion E. subst.
              apply same_type_snoc in H. destruct H as [H _]. apply (elems_loop_some es VBot e) in H.
              destruct H as [x H]. congruence.
      * unfold checklist. cbn [default snd]. unfold checklist_body. cbn [len_concrete v Bool.eqb negb].
        apply ok_iff_err. intros [es' [u' [E _]]]. discriminate.
    + destruct (no_list_err n (k + 1) v s p Kv) as [e E].
      { intro C. rewrite C, k_eqb_refl in EK. discriminate. }
      rewrite E. apply ok_iff_err. intros [es [u [C _]]]. subst s. discriminate.
  - (* arrays *)
    cbn [core nulls rules]. cbn [doc_go] in Hd. rewrite Nat.add_0_r.
    set (v := encode (GArray m g)).
    assert (Kv : kind v = k_of_list) by reflexivity.
    destruct (k_eqb (no_null (kind s)) k_of_list) eqn:EK.
    + apply k_eqb_eq in EK.
      rewrite (check_same n k v s p); try reflexivity; try (rewrite Kv; discriminate); try (rewrite Kv; exact EK).
      rewrite Kv. change (k_eqb k_of_list k_of_list) with true. cbn iota.
      destruct (plain_list s Hp EK) as [es [r [-> [Hes [Hr Hlen]]]]].
      destruct r as [u|].
      * unfold checklist. cbn [default snd expr List.length Nat.ltb Nat.leb]. unfold checklist_body.
        cbn [len_concrete v encode Bool.eqb negb].
        apply ok_iff_err. intros [es' [E _]]. discriminate.
      * unfold checklist. cbn [default snd]. unfold checklist_body.
        cbn [len_concrete v encode Bool.eqb negb len_subsumes list_elems]. rewrite repeat_length.
        destruct (Nat.eqb_spec m (List.length es)) as [El|El]; cbn [negb].
        -- destruct es as [|e [|e2 es]].
           ++ cbn in El. subst m. cbn [repeat]. apply ok_iff_nil. exists []. cbn. repeat split; auto.
           ++ exfalso. apply (Hlen eq_refl). reflexivity.
           ++ cbn [elems_loop] in *.
              destruct (elems_loop VBot e (e2 :: es)) as [[los lv]|] eqn:EL.
              ** pose proof (elems_loop_val _ _ _ _ EL) as EV. inversion EV as [[E1 E2]]. clear EV E2.
                 change (match es with [] => e2 | _ :: _ => last es VBot end) with (last (e :: e2 :: es) VBot) in E1.
                 assert (ST : same_type (e :: e2 :: es)) by (apply (elems_loop_some (e2 :: es) VBot e); eauto).
                 cbn [elems_loop] in EL. rewrite EL.
                 destruct m as [|m]; [discriminate|]. cbn [repeat].
                 rewrite E1 in *. clear E1 los.
                 change (match es with [] => e2 | _ :: _ => last es VBot end) with (last (e :: e2 :: es) VBot).
                 set (x := last (e :: e2 :: es) VBot).
                 assert (Hx : In x (e :: e2 :: es)) by (apply last_in; discriminate).
                 assert (CU : ok_iff (check n (encode g) x (p ++ [SAny])) (rules false g x)).
                 { rewrite encode_wrap. rewrite Forall_forall in Hes. apply (IH Hd 0 n x (p ++ [SAny]) (Hes x Hx)).
                   pose proof (vsize_elem x (e :: e2 :: es) None Hx). lia. }
                 refine (ok_iff_ext _ _ _ _ CU). split.
                 --- intro H. exists (e :: e2 :: es). split; [reflexivity|]. split; [symmetry; exact El|].
                     split; [exact ST|]. right. exact H.
                 --- intros [es' [E [_ [_ H]]]]. inversion E. subst. destruct H as [H|H]; [discriminate|exact H].
              ** cbn [elems_loop] in EL. rewrite EL. apply ok_iff_err. intros [es' [E [_ [H _]]]]. inversion E. subst.
                 apply (elems_loop_some (e2 :: es) VBot e) in H. destruct H as [x H]. cbn [elems_loop] in H. congruence.
        -- apply ok_iff_err. intros [es' [E [H _]]]. inversion E. subst. congruence.
    + destruct (no_list_err n k v s p Kv) as [e E].
      { intro C. rewrite C, k_eqb_refl in EK. discriminate. }
      rewrite E. apply ok_iff_err. intros [es [C _]]. subst s. discriminate.
  - contradiction.
  - cbn [core nulls rules]. replace (k + S (nulls g)) with (S k + nulls g) by lia.
    refine (ok_iff_ext _ _ _ _ (IH Hd (S k) (S n) s p Hp Hn)). reflexivity.
Qed.
