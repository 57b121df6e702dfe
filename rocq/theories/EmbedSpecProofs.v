(** Proofs for [EmbedSpec.v]. *)
From Verif Require Import Prelude GenNameProofs EmbedSpec.
Local Open Scope string_scope.
Local Open Scope list_scope.

(** *** Specification *)

(** How Go reads a list of texts in quotes, up to the closing brace, when no
    character has to be escaped in them. *)
Inductive reading := Between | Inside (read : string) | After.
Definition blank (c : ascii) : bool := Ascii.eqb c " " || Ascii.eqb c "009" || Ascii.eqb c "010".
Definition itself (c : ascii) : bool :=
  let n := N_of_ascii c in (32 <=? n)%N && (n <=? 126)%N && negb (n =? 34)%N && negb (n =? 92)%N.
Fixpoint go_strings (st : reading) (s : string) : option (list string) :=
  match s with
  | EmptyString => None
  | String c r =>
      match st with
      | Between =>
          if blank c then go_strings Between r
          else if Ascii.eqb c """" then go_strings (Inside "") r
          else if Ascii.eqb c "}" then Some [] else None
      | Inside p =>
          if Ascii.eqb c """" then option_map (cons p) (go_strings After r)
          else if itself c then go_strings (Inside (p ++ String c "")) r else None
      | After => if Ascii.eqb c "," then go_strings Between r else None
      end
  end.

(** A program that declares a variable as a list of texts. *)
Definition declares (code name : string) (l : list string) : Prop :=
  exists before body, code = (before ++ "var " ++ name ++ " = []string{" ++ body)%string /\ go_strings Between body = Some l.

(** Base 64 in numbers (RFC 4648). *)
Definition letter (n : N) : ascii :=
  ascii_of_N (if (n <? 26)%N then 65 + n else if (n <? 52)%N then 97 + (n - 26) else if (n <? 62)%N then 48 + (n - 52)
              else if (n =? 62)%N then 43 else 47)%N.
Definition in_base64 (n : N) (x y z w : N) : Prop :=
  (x < 64 /\ y < 64 /\ z < 64 /\ w < 64 /\ n = ((x * 64 + y) * 64 + z) * 64 + w)%N.
Definition number (a b c : ascii) : N := ((N_of_ascii a * 256 + N_of_ascii b) * 256 + N_of_ascii c)%N.
Inductive base64 : string -> string -> Prop :=
| b64_end : base64 "" ""
| b64_one a x y w : in_base64 (number a zero zero) x y 0 w -> base64 (String a "") (String (letter x) (String (letter y) "=="))
| b64_two a b x y z : in_base64 (number a b zero) x y z 0 ->
    base64 (String a (String b "")) (String (letter x) (String (letter y) (String (letter z) "=")))
| b64_three a b c x y z w r t : in_base64 (number a b c) x y z w -> base64 r t ->
    base64 (String a (String b (String c r))) (String (letter x) (String (letter y) (String (letter z) (String (letter w) t)))).

(** *** Proofs *)

Lemma value_digit x : value (digit x) = Some x.
Proof. destruct x as [[[[[[] []] []] []] []] []]; vm_compute; reflexivity. Qed.
Lemma digit_no_pad x : Ascii.eqb (digit x) "=" = false.
Proof. destruct x as [[[[[[] []] []] []] []] []]; vm_compute; reflexivity. Qed.
Lemma digit_itself x : itself (digit x) = true.
Proof. destruct x as [[[[[[] []] []] []] []] []]; vm_compute; reflexivity. Qed.
Lemma digit_no_quote x : Ascii.eqb (digit x) """" = false.
Proof. destruct x as [[[[[[] []] []] []] []] []]; vm_compute; reflexivity. Qed.

Lemma bytes_back1 a b : byte1 (first6 a) (second6 a b) = a.
Proof. destruct a, b; reflexivity. Qed.
Lemma bytes_back2 a b c : byte2 (second6 a b) (third6 b c) = b.
Proof. destruct a, b, c; reflexivity. Qed.
Lemma bytes_back3 b c : byte3 (third6 b c) (fourth6 c) = c.
Proof. destruct b, c; reflexivity. Qed.

Lemma three_ind (P : string -> Prop) : P "" -> (forall a, P (String a "")) -> (forall a b, P (String a (String b ""))) ->
  (forall a b c r, P r -> P (String a (String b (String c r)))) -> forall s, P s.
Proof.
  intros H0 H1 H2 H3. fix IH 1. intros [|a [|b [|c r]]]; [exact H0|apply H1|apply H2|]. apply H3, IH.
Qed.

Lemma decode_encode s : decodeString (encodeToString s) = Some s.
Proof.
  induction s as [|a|a b|a b c r IH] using three_ind; cbn [encodeToString decodeString].
  - reflexivity.
  - rewrite !value_digit. cbn. rewrite bytes_back1. reflexivity.
  - rewrite !value_digit, !digit_no_pad. cbn [Ascii.eqb Bool.eqb String.eqb]. rewrite bytes_back1, bytes_back2. reflexivity.
  - rewrite !value_digit, !digit_no_pad, IH, bytes_back1, bytes_back2, bytes_back3. reflexivity.
Qed.

(** The characters of an encoded text mean themselves in quotes. *)
Fixpoint all_chars (P : ascii -> Prop) (s : string) : Prop :=
  match s with EmptyString => True | String c r => P c /\ all_chars P r end.
Definition safe (c : ascii) : Prop := itself c = true /\ Ascii.eqb c """" = false.
Lemma encoded_safe s : all_chars safe (encodeToString s).
Proof.
  assert (D : forall x, safe (digit x)) by (intros x; split; [apply digit_itself|apply digit_no_quote]).
  assert (E : safe "=") by (split; reflexivity).
  induction s as [|a|a b|a b c r IH] using three_ind; cbn [encodeToString all_chars]; repeat split; try apply D; try apply E; exact IH.
Qed.

(** Cutting up. *)
Lemma sub_all s : substring 0 (String.length s) s = s.
Proof. induction s as [|c s IH]; [reflexivity|]. cbn. rewrite IH. reflexivity. Qed.
Lemma sub_split n s : (n <= String.length s)%nat -> (substring 0 n s ++ substring n (String.length s - n) s)%string = s.
Proof.
  revert s. induction n as [|n IH]; intros s L.
  - rewrite PeanoNat.Nat.sub_0_r, sub_all. destruct s; reflexivity.
  - destruct s as [|c s]; [cbn in L; lia|]. cbn in *. rewrite IH by lia. reflexivity.
Qed.
Lemma sub_length n m s : (n + m <= String.length s)%nat -> String.length (substring n m s) = m.
Proof.
  revert m s. induction n as [|n IH]; intros m s.
  - revert s. induction m as [|m IHm]; intros s L; [destruct s; reflexivity|]. destruct s as [|c s]; [cbn in L; lia|]. cbn in *.
    rewrite IHm by lia. reflexivity.
  - intros L. destruct s as [|c s]; [cbn in L; lia|]. cbn in *. apply IH. lia.
Qed.

Lemma concat_cons x l : String.concat "" (x :: l) = (x ++ String.concat "" l)%string.
Proof. destruct l; cbn; [rewrite str_app_nil|]; reflexivity. Qed.

Lemma loop_parts fuel : forall s, (String.length s < fuel)%nat ->
  String.concat "" (parts_loop fuel s) = s /\
  (forall p, In p (parts_loop fuel s) -> (1 <= String.length p <= 80)%nat) /\
  (forall a p b, parts_loop fuel s = a ++ p :: b -> b <> [] -> String.length p = 80%nat).
Proof.
  induction fuel as [|f IH]; intros s L; [lia|]. cbn [parts_loop]. unfold width.
  destruct (Nat.ltb 80 (String.length s)) eqn:E.
  - apply PeanoNat.Nat.ltb_lt in E.
    assert (L1 : String.length (substring 0 80 s) = 80%nat) by (apply sub_length; lia).
    assert (L2 : String.length (substring 80 (String.length s - 80) s) = (String.length s - 80)%nat) by (apply sub_length; lia).
    destruct (IH (substring 80 (String.length s - 80) s)) as (I1 & I2 & I4); [lia|]. repeat split.
    + rewrite concat_cons, I1. apply sub_split. lia.
    + destruct H as [<-|H]; [lia|apply I2, H].
    + destruct H as [<-|H]; [lia|apply I2, H].
    + intros a p b X N. destruct a as [|x a]; injection X as X1 X2; [congruence|]. exact (I4 a p b X2 N).
  - apply PeanoNat.Nat.ltb_ge in E. destruct (Nat.ltb 0 (String.length s)) eqn:Z.
    + apply PeanoNat.Nat.ltb_lt in Z. repeat split.
      * destruct H as [<-|[]]; lia.
      * destruct H as [<-|[]]; lia.
      * intros [|x [|y a]] p b X N; [injection X as <- <-; contradiction|discriminate X|discriminate X].
    + apply PeanoNat.Nat.ltb_ge in Z. assert (s = "") as -> by (destruct s; [reflexivity|cbn in Z; lia]).
      repeat split; try contradiction. intros [|x a] p b X; discriminate X.
Qed.

Lemma all_app P s t : all_chars P (s ++ t) <-> all_chars P s /\ all_chars P t.
Proof. induction s as [|c s IH]; cbn; [tauto|]. rewrite IH. tauto. Qed.
Lemma all_concat P l : all_chars P (String.concat "" l) -> forall p, In p l -> all_chars P p.
Proof.
  induction l as [|x l IH]; intros H p I; [destruct I|]. rewrite concat_cons, all_app in H. destruct H as [H1 H2].
  destruct I as [<-|I]; [exact H1|exact (IH H2 p I)].
Qed.

Lemma read_inside p : forall acc r, all_chars safe p ->
  go_strings (Inside acc) (p ++ String """" r) = option_map (cons (acc ++ p)%string) (go_strings After r).
Proof.
  induction p as [|c p IH]; intros acc r H.
  - cbn. rewrite str_app_nil. reflexivity.
  - destruct H as [[H1 H2] H3]. cbn [append go_strings]. rewrite H2, H1, (IH _ _ H3). do 2 f_equal. rewrite str_app_assoc. reflexivity.
Qed.
Lemma read_parts ps : forall tail, (forall p, In p ps -> all_chars safe p) ->
  go_strings Between (String.concat "" (map (fun p => (nl ++ "    " ++ quote ++ p ++ quote ++ ",")%string) ps) ++ nl ++ "}" ++ tail) = Some ps.
Proof.
  intros tail. induction ps as [|p ps IH]; intros H; [reflexivity|]. cbn [map]. rewrite concat_cons, !str_app_assoc.
  set (rest := (String.concat "" _ ++ nl ++ "}" ++ tail)%string) in *.
  change (go_strings (Inside "") (p ++ String """" (String "," rest)) = Some (p :: ps)).
  rewrite read_inside by (apply H; left; reflexivity).
  change (option_map (cons p) (go_strings Between rest) = Some (p :: ps)).
  rewrite IH by (intros q I; apply H; right; exact I). reflexivity.
Qed.

Lemma embedded zip unzip encoded : (forall s, unzip (zip s) = Some s) ->
  exists code, inlined (Ok encoded) zip = Ok code /\
    exists l, declares code "swaggerSpec" l /\ decodeSpec unzip l = Ok encoded.
Proof.
  intros Z. eexists. split; [reflexivity|]. exists (parts (encodeToString (zip encoded))).
  destruct (loop_parts (S (String.length (encodeToString (zip encoded)))) (encodeToString (zip encoded))) as (P1 & _); [lia|]. split.
  - unfold spec_text. exists ("// Base64 encoded, gzipped, json marshaled Swagger object" ++ nl)%string. eexists. split.
    + rewrite !str_app_assoc. reflexivity.
    + change (go_strings Between (String.concat "" (map (fun p => (nl ++ "    " ++ quote ++ p ++ quote ++ ",")%string)
        (parts (encodeToString (zip encoded)))) ++ nl ++ "}" ++ nl) = Some (parts (encodeToString (zip encoded)))).
      apply read_parts. apply all_concat. unfold parts. rewrite P1. apply encoded_safe.
  - unfold decodeSpec, parts. rewrite P1, decode_encode, Z. reflexivity.
Qed.

Lemma parts_sizes s : String.concat "" (parts s) = s /\ (forall p, In p (parts s) -> (1 <= String.length p <= 80)%nat) /\
  (forall a p b, parts s = a ++ p :: b -> b <> [] -> String.length p = 80%nat).
Proof. destruct (loop_parts (S (String.length s)) s) as (A & B & C); [lia|]. split; [exact A|split; [exact B|exact C]]. Qed.


Definition b2n (b : bool) : N := if b then 1%N else 0%N.
Definition N6 (x : six) : N := N.of_nat (num x).
Lemma digit_letter x : digit x = letter (N6 x).
Proof. destruct x as [[[[[[] []] []] []] []] []]; vm_compute; reflexivity. Qed.
Lemma N6_sum a b c d e f : N6 (a, b, c, d, e, f) = (32 * b2n a + 16 * b2n b + 8 * b2n c + 4 * b2n d + 2 * b2n e + b2n f)%N.
Proof. destruct a, b, c, d, e, f; vm_compute; reflexivity. Qed.
Lemma ascii_sum a0 a1 a2 a3 a4 a5 a6 a7 : N_of_ascii (Ascii a0 a1 a2 a3 a4 a5 a6 a7)
  = (b2n a0 + 2 * b2n a1 + 4 * b2n a2 + 8 * b2n a3 + 16 * b2n a4 + 32 * b2n a5 + 64 * b2n a6 + 128 * b2n a7)%N.
Proof. destruct a0, a1, a2, a3, a4, a5, a6, a7; vm_compute; reflexivity. Qed.
Lemma N6_small x : (N6 x < 64)%N.
Proof. destruct x as [[[[[[] []] []] []] []] []]; vm_compute; reflexivity. Qed.
Lemma four_digits a b c : in_base64 (number a b c) (N6 (first6 a)) (N6 (second6 a b)) (N6 (third6 b c)) (N6 (fourth6 c)).
Proof.
  repeat (split; [apply N6_small|]). destruct a as [a0 a1 a2 a3 a4 a5 a6 a7], b as [b0 b1 b2 b3 b4 b5 b6 b7], c as [c0 c1 c2 c3 c4 c5 c6 c7].
  unfold number, first6, second6, third6, fourth6. rewrite !ascii_sum, !N6_sum.
  generalize (b2n a0) (b2n a1) (b2n a2) (b2n a3) (b2n a4) (b2n a5) (b2n a6) (b2n a7) (b2n b0) (b2n b1) (b2n b2) (b2n b3) (b2n b4) (b2n b5)
    (b2n b6) (b2n b7) (b2n c0) (b2n c1) (b2n c2) (b2n c3) (b2n c4) (b2n c5) (b2n c6) (b2n c7). intros. lia.
Qed.
Lemma encode_base64 s : base64 s (encodeToString s).
Proof.
  induction s as [|a|a b|a b c r IH] using three_ind; cbn [encodeToString]; rewrite ?digit_letter.
  - constructor.
  - apply (b64_one a _ _ 0%N). exact (four_digits a zero zero).
  - apply b64_two. exact (four_digits a b zero).
  - apply b64_three; [apply four_digits|exact IH].
Qed.
