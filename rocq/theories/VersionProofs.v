(** Lemmas about versions: order, printing and parsing. *)
From Verif Require Import Prelude Version.
From Coq Require Import ZifyBool ZifyN ZifyNat.
Local Open Scope N_scope.
Ltac Zify.zify_post_hook ::= Z.div_mod_to_equations.

(** *** Specification of the order, independent of [vless]. *)
Definition vlt (a b : version) : Prop :=
  fst a < fst b \/ (fst a = fst b /\ snd a < snd b).
Definition vle (a b : version) : Prop := vlt a b \/ a = b.

Lemma vless_spec a b : vless a b = true <-> vlt a b.
Proof. unfold vless, vlt; lia. Qed.

Lemma vless_false a b : vless a b = false <-> vle b a.
Proof.
  unfold vless, vle, vlt; destruct a as [a1 a2], b as [b1 b2]; cbn [fst snd]; split.
  - intros H. assert (H' : (b1 < a1 \/ b1 = a1 /\ b2 < a2) \/ (b1 = a1 /\ b2 = a2)) by lia.
    destruct H' as [H'|[-> ->]]; auto.
  - intros [H|H]; [lia|inversion H; subst; lia].
Qed.

Lemma veqb_spec a b : veqb a b = true <-> a = b.
Proof.
  unfold veqb; destruct a as [a1 a2], b as [b1 b2]; cbn [fst snd]; split.
  - intros H; f_equal; lia.
  - intros H; inversion H; subst; lia.
Qed.

Lemma veqb_refl a : veqb a a = true.
Proof. apply veqb_spec; reflexivity. Qed.

Lemma veqb_false a b : veqb a b = false <-> a <> b.
Proof.
  rewrite <- veqb_spec; destruct (veqb a b); split; intros H; try congruence.
Qed.

Lemma version_eq_dec (a b : version) : {a = b} + {a <> b}.
Proof. destruct (veqb a b) eqn:E; [left; apply veqb_spec|right; apply veqb_false]; exact E. Qed.

Lemma vlt_irrefl a : ~ vlt a a.
Proof. unfold vlt; lia. Qed.
Lemma vlt_trans a b c : vlt a b -> vlt b c -> vlt a c.
Proof. unfold vlt; lia. Qed.
Lemma vlt_total a b : vlt a b \/ a = b \/ vlt b a.
Proof.
  unfold vlt; destruct a as [a1 a2], b as [b1 b2]; cbn [fst snd].
  assert (H : (a1 < b1 \/ a1 = b1 /\ a2 < b2) \/ (a1 = b1 /\ a2 = b2) \/ (b1 < a1 \/ b1 = a1 /\ b2 < a2)) by lia.
  destruct H as [H|[[-> ->]|H]]; auto.
Qed.
Lemma vle_refl a : vle a a. Proof. right; reflexivity. Qed.
Lemma vle_trans a b c : vle a b -> vle b c -> vle a c.
Proof. unfold vle; intros [H|<-] [K|<-]; auto; left; eapply vlt_trans; eauto. Qed.
Lemma vlt_le_trans a b c : vlt a b -> vle b c -> vlt a c.
Proof. intros H [K|<-]; auto; eapply vlt_trans; eauto. Qed.
Lemma vle_lt_trans a b c : vle a b -> vlt b c -> vlt a c.
Proof. intros [H|<-] K; auto; eapply vlt_trans; eauto. Qed.
Lemma vle_total a b : vle a b \/ vle b a.
Proof. destruct (vlt_total a b) as [H|[->|H]]; unfold vle; auto. Qed.
Lemma vle_antisym a b : vle a b -> vle b a -> a = b.
Proof. intros [H|H] [K|K]; auto. exfalso; eapply vlt_irrefl; eapply vlt_trans; eauto. Qed.
Lemma vlt_vle a b : vlt a b -> vle a b. Proof. left; assumption. Qed.
Lemma vlt_neq a b : vlt a b -> a <> b.
Proof. intros H ->; exact (vlt_irrefl _ H). Qed.
Lemma vle_not_vlt a b : vle a b -> ~ vlt b a.
Proof. intros H K. apply (vlt_irrefl a). eapply vle_lt_trans; eauto. Qed.
Lemma synv0_min a : vle synv0 a.
Proof.
  unfold vle, vlt, synv0, SV; destruct a as [a1 a2]; cbn [fst snd].
  assert (H : (0 < a1 \/ 0 = a1 /\ 0 < a2) \/ (a1 = 0 /\ a2 = 0)) by lia.
  destruct H as [H|[-> ->]]; auto.
Qed.
Lemma vless_total a b : vless a b = false -> vless b a = false -> a = b.
Proof. rewrite !vless_false; intros; apply vle_antisym; auto. Qed.

(** *** [_cmpSV] *)
Lemma cmpSV_spec l r :
  cmpSV l r = Some (if vless l r then (-1)%Z else if vless r l then 1%Z else 0%Z).
Proof.
  unfold cmpSV, vless, veqb; destruct l as [l1 l2], r as [r1 r2]; cbn [fst snd].
  destruct (N.ltb_spec l1 r1), (N.ltb_spec r1 l1), (N.eqb_spec l1 r1), (N.eqb_spec r1 l1);
    try lia; destruct (N.ltb_spec l2 r2), (N.ltb_spec r2 l2), (N.eqb_spec l2 r2);
    try lia; cbn; reflexivity.
Qed.

(** *** Decimal strings: specification *)
Fixpoint all_digits (s : string) : bool :=
  match s with
  | EmptyString => true
  | String c r => (let n := N_of_ascii c in (48 <=? n) && (n <=? 57)) && all_digits r
  end.
(** A non-empty run of ASCII digits. *)
Definition numeral (s : string) : Prop := s <> EmptyString /\ all_digits s = true.
(** The number denoted by a run of digits, in positional notation. *)
Fixpoint denote_from (acc : N) (s : string) : N :=
  match s with
  | EmptyString => acc
  | String c r => denote_from (10 * acc + (N_of_ascii c - 48)) r
  end.
Definition denote (s : string) : N := denote_from 0 s.

Lemma denote_from_ge s : forall acc, acc <= denote_from acc s.
Proof.
  induction s as [|c r IH]; intros acc; cbn [denote_from]; [lia|].
  specialize (IH (10 * acc + (N_of_ascii c - 48))). lia.
Qed.

Lemma parse_loop_spec s : forall n,
  n <= max32 ->
  parse_loop s n =
    if all_digits s && (denote_from n s <=? max32) then Some (denote_from n s) else None.
Proof.
  induction s as [|c r IH]; intros n Hn; cbn [parse_loop all_digits denote_from].
  - rewrite andb_true_l. destruct (N.leb_spec n max32); [reflexivity|lia].
  - unfold digit_val. cbv zeta.
    destruct ((48 <=? N_of_ascii c) && (N_of_ascii c <=? 57)) eqn:E; [|reflexivity].
    rewrite andb_true_l.
    assert (Hc : cutoff64 <=? n = false) by (apply N.leb_gt; unfold max32, cutoff64 in *; lia).
    rewrite Hc.
    replace (n * 10 + (N_of_ascii c - 48)) with (10 * n + (N_of_ascii c - 48)) by lia.
    set (m := 10 * n + (N_of_ascii c - 48)) in *.
    destruct (N.ltb_spec max32 m) as [H|H].
    + pose proof (denote_from_ge r m) as G.
      destruct (all_digits r); cbn [andb]; [|reflexivity].
      destruct (N.leb_spec (denote_from m r) max32); [lia|reflexivity].
    + apply IH; lia.
Qed.

Lemma parse_uint32_some s n :
  parse_uint32 s = Some n <-> numeral s /\ denote s = n /\ n < 2 ^ 32.
Proof.
  unfold parse_uint32, numeral, denote.
  destruct s as [|c r].
  - split; [discriminate|intros [[H _] _]; congruence].
  - rewrite parse_loop_spec by (unfold max32; lia).
    set (s := String c r). assert (Hs : s <> EmptyString) by discriminate. clearbody s. split.
    + destruct (all_digits s) eqn:E; cbn [andb]; [|discriminate].
      destruct (N.leb_spec (denote_from 0 s) max32); [|discriminate].
      intros H0; inversion H0; subst n. repeat split; auto.
      change (2 ^ 32) with 4294967296; unfold max32 in *; lia.
    + intros [[_ E] [<- Hlt]]. rewrite E; cbn [andb].
      destruct (N.leb_spec (denote_from 0 s) max32); [reflexivity|change (2 ^ 32) with 4294967296 in Hlt; unfold max32 in *; lia].
Qed.

(** *** Splitting *)
Fixpoint has_char (c : ascii) (s : string) : bool :=
  match s with
  | EmptyString => false
  | String x r => Ascii.eqb x c || has_char c r
  end.

Lemma split_on_nochar c s : has_char c s = false -> split_on c s = [s].
Proof.
  induction s as [|x r IH]; cbn [has_char split_on]; [reflexivity|].
  destruct (Ascii.eqb x c); cbn [orb]; [discriminate|].
  intros H; rewrite IH by exact H; reflexivity.
Qed.

Lemma split_on_ne c s : split_on c s <> [].
Proof.
  destruct s as [|x r]; cbn [split_on]; [discriminate|].
  destruct (Ascii.eqb x c); [discriminate|]. destruct (split_on c r); discriminate.
Qed.

Lemma split_on_app c s t :
  has_char c s = false -> split_on c (s ++ String c t)%string = s :: split_on c t.
Proof.
  induction s as [|x r IH]; cbn [has_char split_on append].
  - intros _. rewrite Ascii.eqb_refl. reflexivity.
  - destruct (Ascii.eqb x c); cbn [orb]; [discriminate|].
    intros H; rewrite IH by exact H. reflexivity.
Qed.

Lemma split_on_cons_inv c s : forall p ps,
  split_on c s = p :: ps ->
  has_char c p = false /\
  match ps with
  | [] => s = p
  | _ => exists t, s = (p ++ String c t)%string /\ split_on c t = ps
  end.
Proof.
  induction s as [|x r IH]; cbn [split_on]; intros p ps H.
  - inversion H; subst; split; reflexivity.
  - destruct (Ascii.eqb x c) eqn:E.
    + inversion H; subst p ps. split; [reflexivity|].
      destruct (split_on c r) as [|q qs] eqn:E2; [exfalso; exact (split_on_ne _ _ E2)|].
      exists r. apply Ascii.eqb_eq in E; subst x. split; [reflexivity|exact E2].
    + destruct (split_on c r) as [|q qs] eqn:E2; [exfalso; exact (split_on_ne _ _ E2)|].
      inversion H; subst p ps. destruct (IH q qs eq_refl) as [H1 H2]. split.
      * cbn [has_char]. rewrite E. exact H1.
      * destruct qs; [subst; reflexivity|].
        destruct H2 as [t [-> Ht]]. exists t. split; [reflexivity|exact Ht].
Qed.

Lemma split_two c s p q :
  split_on c s = [p; q] <->
  s = (p ++ String c q)%string /\ has_char c p = false /\ has_char c q = false.
Proof.
  split.
  - intros H. destruct (split_on_cons_inv _ _ _ _ H) as [Hp [t [Hs Ht]]].
    destruct (split_on_cons_inv _ _ _ _ Ht) as [Hq Heq]. subst t. auto.
  - intros [-> [Hp Hq]]. rewrite split_on_app by exact Hp.
    rewrite split_on_nochar by exact Hq. reflexivity.
Qed.

Lemma digits_no_dot s : all_digits s = true -> has_char "."%char s = false.
Proof.
  induction s as [|c r IH]; cbn [all_digits has_char]; [reflexivity|].
  cbv zeta. intros H. apply andb_true_iff in H as [H1 H2]. rewrite IH by exact H2.
  destruct (Ascii.eqb_spec c "."%char) as [->|]; [|reflexivity].
  exfalso. vm_compute in H1. discriminate.
Qed.

(** *** Printing *)
Lemma N_of_digit d : d < 10 -> N_of_ascii (digit d) = 48 + d.
Proof. intros H; unfold digit. apply N_ascii_embedding. lia. Qed.

Lemma show_aux_digits f : forall n acc,
  all_digits acc = true -> all_digits (show_aux f n acc) = true.
Proof.
  induction f as [|f IH]; intros n acc H; cbn [show_aux]; [exact H|].
  assert (H' : all_digits (String (digit (n mod 10)) acc) = true).
  { cbn [all_digits]. cbv zeta. rewrite H, N_of_digit by (apply N.mod_lt; lia).
    pose proof (N.mod_lt n 10). lia. }
  destruct (n <? 10); [exact H'|]. apply IH, H'.
Qed.

Fixpoint pow10 (s : string) : N :=
  match s with EmptyString => 1 | String _ r => 10 * pow10 r end.

Lemma denote_from_add s : forall a, denote_from a s = a * pow10 s + denote_from 0 s.
Proof.
  induction s as [|c r IH]; intros a; cbn [denote_from pow10]; [lia|].
  rewrite IH, (IH (10 * 0 + _)). lia.
Qed.

Lemma size_nat_div10 n : n <> 0 -> (N.size_nat (n / 10) < N.size_nat n)%nat.
Proof.
  intros Hn.
  assert (Hsz : forall m, N.size_nat m = N.to_nat (N.size m)).
  { intros [|p]; [reflexivity|]. cbn [N.size_nat N.size].
    induction p as [p IH|p IH|]; cbn [Pos.size_nat Pos.size]; rewrite ?IH; lia. }
  rewrite !Hsz.
  destruct (N.eq_dec (n / 10) 0) as [E|E].
  - rewrite E. cbn. destruct n; [lia|]. cbn. pose proof (Pos2Nat.is_pos (Pos.size p)). lia.
  - assert (N.size (n / 10) < N.size n); [|lia].
    rewrite !N.size_log2 by assumption.
    assert (N.log2 (n / 10) < N.log2 n); [|lia].
    apply N.log2_lt_pow2; [lia|].
    apply N.div_lt_upper_bound; [lia|].
    pose proof (N.log2_spec n ltac:(lia)) as [_ H].
    rewrite N.pow_succ_r' in H. lia.
Qed.

Lemma show_aux_denote f : forall n acc,
  (N.size_nat n < f)%nat ->
  denote_from 0 (show_aux f n acc) = n * pow10 acc + denote_from 0 acc.
Proof.
  induction f as [|f IH]; intros n acc Hf; [lia|]. cbn [show_aux].
  pose proof (N.mod_lt n 10 ltac:(lia)) as Hm.
  pose proof (N.div_mod n 10 ltac:(lia)) as Hd.
  destruct (N.ltb_spec n 10) as [H|H].
  - cbn [denote_from]. rewrite denote_from_add.
    rewrite N_of_digit by exact Hm.
    replace (n mod 10) with n by (symmetry; apply N.mod_small; exact H). nia.
  - rewrite IH; [|pose proof (size_nat_div10 n ltac:(lia)); lia].
    cbn [denote_from pow10]. rewrite (denote_from_add acc (_ + _)).
    rewrite N_of_digit by exact Hm. nia.
Qed.

Lemma show_aux_nonempty f n acc : acc <> EmptyString \/ f <> O -> show_aux f n acc <> EmptyString.
Proof.
  revert n acc; induction f as [|f IH]; intros n acc H; cbn [show_aux].
  - destruct H; [assumption|congruence].
  - destruct (n <? 10); [discriminate|]. apply IH. left; discriminate.
Qed.

Lemma show_N_numeral n : numeral (show_N n).
Proof.
  unfold show_N; split.
  - apply show_aux_nonempty; right; discriminate.
  - apply show_aux_digits; reflexivity.
Qed.

Lemma show_N_denote n : denote (show_N n) = n.
Proof.
  unfold denote, show_N. rewrite show_aux_denote by lia. cbn [pow10 denote_from]. lia.
Qed.

Lemma show_N_inj a b : show_N a = show_N b -> a = b.
Proof. intros H. rewrite <- (show_N_denote a), H. apply show_N_denote. Qed.

Lemma append_dot s t : (s ++ "." ++ t)%string = (s ++ String "."%char t)%string.
Proof. reflexivity. Qed.

Lemma vstring_inj a b : vstring a = vstring b -> a = b.
Proof.
  unfold vstring. rewrite !append_dot. intros H.
  assert (Ha := proj2 (split_two "."%char (show_N (fst a) ++ String "."%char (show_N (snd a))) _ _)
     (conj eq_refl (conj (digits_no_dot _ (proj2 (show_N_numeral (fst a))))
                         (digits_no_dot _ (proj2 (show_N_numeral (snd a))))))).
  assert (Hb := proj2 (split_two "."%char (show_N (fst b) ++ String "."%char (show_N (snd b))) _ _)
     (conj eq_refl (conj (digits_no_dot _ (proj2 (show_N_numeral (fst b))))
                         (digits_no_dot _ (proj2 (show_N_numeral (snd b))))))).
  rewrite H in Ha. rewrite Ha in Hb. inversion Hb as [[H1 H2]].
  destruct a, b; cbn [fst snd] in *. f_equal; apply show_N_inj; assumption.
Qed.

(** *** Parsing *)

(** What a well-formed version string denotes. *)
Definition version_text (s : string) (v : version) : Prop :=
  exists a b, s = (a ++ "." ++ b)%string /\ numeral a /\ numeral b /\
    v = (denote a, denote b).

Lemma parse_version_ok s v :
  parse_version s = (v, None) <->
  version_text s v /\ fst v < 2 ^ 32 /\ snd v < 2 ^ 32.
Proof.
  unfold parse_version, version_text. split.
  - destruct (split_on "."%char s) as [|p [|q [|? ?]]] eqn:E; try discriminate.
    apply split_two in E as [-> [Hp Hq]].
    destruct (parse_uint32 p) as [x|] eqn:Ex; [|discriminate].
    destruct (parse_uint32 q) as [y|] eqn:Ey; [|discriminate].
    intros H; inversion H; subst v; clear H.
    apply parse_uint32_some in Ex as [Np [<- Hx]].
    apply parse_uint32_some in Ey as [Nq [<- Hy]].
    split; [|split; assumption]. exists p, q. auto.
  - intros [[a [b [-> [Na [Nb ->]]]]] [Ha Hb]]. cbn [fst snd] in *.
    rewrite append_dot.
    rewrite (proj2 (split_two _ _ a b)) by
      (repeat split; apply digits_no_dot; [apply Na|apply Nb]).
    rewrite (proj2 (parse_uint32_some a (denote a))) by auto.
    rewrite (proj2 (parse_uint32_some b (denote b))) by auto.
    reflexivity.
Qed.

Lemma parse_version_cases s :
  (exists v, parse_version s = (v, None)) \/ parse_version s = (synv0, Some malformed).
Proof.
  unfold parse_version.
  destruct (split_on "."%char s) as [|p [|q [|? ?]]]; auto.
  destruct (parse_uint32 p); auto. destruct (parse_uint32 q); eauto.
Qed.

Lemma parse_vstring v :
  fst v < 2 ^ 32 -> snd v < 2 ^ 32 -> parse_version (vstring v) = (v, None).
Proof.
  intros H1 H2. apply parse_version_ok. split; [|split; assumption].
  exists (show_N (fst v)), (show_N (snd v)).
  split; [reflexivity|]. split; [apply show_N_numeral|]. split; [apply show_N_numeral|].
  rewrite !show_N_denote. destruct v; reflexivity.
Qed.

Lemma parse_vstring_big v :
  2 ^ 32 <= fst v \/ 2 ^ 32 <= snd v -> parse_version (vstring v) = (synv0, Some malformed).
Proof.
  intros H. destruct (parse_version_cases (vstring v)) as [[w Hw]|Hw]; [|exact Hw].
  exfalso. apply parse_version_ok in Hw as [[a [b [Hs [Na [Nb ->]]]]] [H1 H2]].
  cbn [fst snd] in *. unfold vstring in Hs. rewrite !append_dot in Hs.
  assert (Ha := proj2 (split_two "."%char (show_N (fst v) ++ String "."%char (show_N (snd v))) _ _)
     (conj eq_refl (conj (digits_no_dot _ (proj2 (show_N_numeral (fst v))))
                         (digits_no_dot _ (proj2 (show_N_numeral (snd v))))))).
  rewrite Hs in Ha.
  rewrite (proj2 (split_two _ _ a b)) in Ha by
      (repeat split; apply digits_no_dot; [apply Na|apply Nb]).
  inversion Ha; subst a b. rewrite !show_N_denote in *. lia.
Qed.
