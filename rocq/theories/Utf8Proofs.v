(** Decoding what was encoded. *)
From Verif Require Import Prelude Strings Version Util GenName.
Local Open Scope string_scope.
Local Open Scope list_scope.
Local Open Scope N_scope.

(** A character of Unicode. *)
Definition scalar (r : N) : Prop := r < 55296 \/ 57344 <= r < 1114112.

Lemma byte_enc x : x < 256 -> byte (enc x) = x.
Proof. intros H. apply N_ascii_embedding, H. Qed.

Lemma in_range_enc lo hi x : x < 256 -> in_range lo hi (enc x) = (lo <=? x) && (x <=? hi).
Proof. intros H. unfold in_range. rewrite byte_enc by exact H. reflexivity. Qed.

Lemma cont_enc lo hi x r : lo <= x <= hi -> x < 256 -> cont lo hi (String (enc x) r) = Some (x - 128, r).
Proof.
  intros H B. cbn [cont]. rewrite in_range_enc by exact B. 
  replace (lo <=? x) with true by (symmetry; apply N.leb_le; lia).
  replace (x <=? hi) with true by (symmetry; apply N.leb_le; lia). cbn [andb]. rewrite byte_enc by exact B. reflexivity.
Qed.

Ltac cmp := repeat match goal with
  | |- context[(?a <? ?b)] => first [replace (a <? b) with true by (symmetry; apply N.ltb_lt; lia)
                                    |replace (a <? b) with false by (symmetry; apply N.ltb_ge; lia)]
  | |- context[(?a <=? ?b)] => first [replace (a <=? b) with true by (symmetry; apply N.leb_le; lia)
                                     |replace (a <=? b) with false by (symmetry; apply N.leb_gt; lia)]
  | |- context[(?a =? ?b)] => first [replace (a =? b) with true by (symmetry; apply N.eqb_eq; lia)
                                    |replace (a =? b) with false by (symmetry; apply N.eqb_neq; lia)]
  end; cbn [andb orb].

Lemma mod64 x : x = 64 * (x / 64) + x mod 64 /\ x mod 64 < 64.
Proof. split; [apply N.div_mod; lia|apply N.mod_lt; lia]. Qed.

Lemma runes_encode_rune r s : scalar r -> runes (encode_rune r ++ s)%string = r :: runes s.
Proof.
  intros V. assert (R : r < 1114112) by (destruct V; lia). unfold runes, encode_rune, within.
  destruct (mod64 r) as [D0 M0]. destruct (mod64 (r / 64)) as [D1 M1]. destruct (mod64 (r / 4096)) as [D2 M2].
  assert (Q1 : r / 64 / 64 = r / 4096) by (rewrite N.div_div by lia; reflexivity).
  assert (Q2 : r / 4096 / 64 = r / 262144) by (rewrite N.div_div by lia; reflexivity).
  rewrite Q1 in D1. rewrite Q2 in D2.
  set (a := r mod 64) in *. set (b := (r / 64) mod 64) in *. set (c := (r / 4096) mod 64) in *.
  set (x := r / 64) in *. set (y := r / 4096) in *. set (z := r / 262144) in *.
  clearbody a b c x y z. clear Q1 Q2.
  destruct (N.ltb_spec r 128) as [H|H].
  { cbn [append runes_from]. unfold decode_rune. rewrite byte_enc by lia. cmp. reflexivity. }
  destruct (N.ltb_spec r 2048) as [H2|H2].
  { cbn [append runes_from]. unfold decode_rune, decode2. rewrite byte_enc, in_range_enc by lia. cmp.
    rewrite cont_enc by lia. cbn [Nat.sub runes_from]. f_equal; lia. }
  replace ((55296 <=? r) && (r <=? 57343)) with false.
  2:{ symmetry. apply andb_false_iff. destruct V; [left; apply N.leb_gt; lia|right; apply N.leb_gt; lia]. }
  replace (1114111 <? r) with false by (symmetry; apply N.ltb_ge; destruct V; lia). cbn [orb].
  destruct (N.ltb_spec r 65536) as [H3|H3].
  { cbn [append runes_from]. unfold decode_rune. rewrite byte_enc, !in_range_enc by lia.
    destruct (N.eq_dec y 0) as [->|Y0].
    - cmp. unfold decode3. rewrite !cont_enc by lia. cbn [Nat.sub runes_from]. f_equal; lia.
    - destruct (N.eq_dec y 13) as [->|Y13].
      + cmp. unfold decode3. rewrite !cont_enc by (destruct V; lia). cbn [Nat.sub runes_from]. f_equal; lia.
      + cmp. unfold decode3. rewrite !cont_enc by lia. cbn [Nat.sub runes_from]. f_equal; lia. }
  cbn [append runes_from]. unfold decode_rune. rewrite byte_enc, !in_range_enc by lia.
  destruct (N.eq_dec z 0) as [->|Z0].
  - cmp. unfold decode4. rewrite !cont_enc by lia. cbn [Nat.sub runes_from]. f_equal; lia.
  - destruct (N.eq_dec z 4) as [->|Z4].
    + cmp. unfold decode4. rewrite !cont_enc by lia. cbn [Nat.sub runes_from]. f_equal; lia.
    + cmp. unfold decode4. rewrite !cont_enc by lia. cbn [Nat.sub runes_from]. f_equal; lia.
Qed.

Lemma runes_encode rs : Forall scalar rs -> runes (encode rs) = rs.
Proof.
  induction 1 as [|r rs V F IH]; [reflexivity|]. cbn [encode]. rewrite runes_encode_rune by exact V.
  rewrite IH. reflexivity.
Qed.

Lemma encode_app a : forall b, encode (a ++ b) = (encode a ++ encode b)%string.
Proof.
  induction a as [|r a IH]; intros b; [reflexivity|]. cbn [app encode]. rewrite IH.
  generalize (encode_rune r), (encode a), (encode b). clear. intros x y z.
  induction x as [|c x IH]; [reflexivity|]. cbn. rewrite IH. reflexivity.
Qed.

Lemma encode_inj a b : Forall scalar a -> Forall scalar b -> encode a = encode b -> a = b.
Proof. intros A B E. rewrite <- (runes_encode a A), <- (runes_encode b B), E. reflexivity. Qed.
