(** Proofs about InputMap.v. *)
From Verif Require Import Prelude Strings Version Util GenName GenNameProofs GenConstProofs VersionProofs Utf8Proofs InputMap.
Local Open Scope string_scope.
Local Open Scope list_scope.

(** *** Specification *)

(** An odd number of quotes stands before. *)
Definition quoted (a : list N) : bool := Nat.odd (count_occ N.eq_dec a 34%N).

(** A list in parts with the separator between them. *)
Fixpoint joined (sep : N) (ps : list (list N)) : list N :=
  match ps with
  | [] => []
  | [p] => p
  | p :: r => p ++ sep :: joined sep r
  end.

(** The parts of a text: cut at every separator that is not in quotes. *)
Definition cuts (sep : N) (rs : list N) (ps : list (list N)) : Prop :=
  ps <> [] /\ joined sep ps = rs /\
  (forall p, In p (removelast ps) -> quoted p = false) /\
  (forall p a b, In p ps -> p = a ++ sep :: b -> quoted a = true).

(** A string with the quotes at both ends taken off. *)
Fixpoint quotes (n : nat) : string := match n with O => "" | S n' => String """" (quotes n') end.
Definition bare (s : string) : Prop :=
  (forall r, s <> String """" r) /\ (forall p, s <> (p ++ """")%string).
Definition stripped (s t : string) : Prop :=
  bare t /\ exists n m, s = (quotes n ++ t ++ quotes m)%string.

(** *** Splitting *)

Lemma quoted_app a b : quoted (a ++ b) = xorb (quoted a) (quoted b).
Proof. unfold quoted. rewrite count_occ_app, Nat.odd_add. reflexivity. Qed.

Lemma quoted_cons c a : quoted (c :: a) = xorb (c =? 34)%N (quoted a).
Proof.
  change (c :: a) with ([c] ++ a). rewrite quoted_app. f_equal. unfold quoted. cbn [count_occ].
  destruct (N.eq_dec c 34) as [->|D]; [reflexivity|]. symmetry. apply N.eqb_neq, D.
Qed.

Section Split.
Variable sep : N.
Hypothesis Hsep : sep <> 34%N.

Lemma split_pass p : forall q part rest, (forall a b, p = a ++ sep :: b -> xorb q (quoted a) = true) ->
  split_loop sep q part (p ++ rest) = split_loop sep (xorb q (quoted p)) (part ++ p) rest.
Proof.
  induction p as [|c p IH]; intros q part rest H.
  - cbn. rewrite xorb_false_r, app_nil_r. reflexivity.
  - cbn [app split_loop]. set (q' := if (c =? dquote)%N then negb q else q).
    assert (Q : q' = xorb q (c =? 34)%N).
    { unfold q', dquote. destruct (c =? 34)%N, q; reflexivity. }
    replace ((c =? sep)%N && negb q') with false.
    + rewrite IH.
      * rewrite quoted_cons, <- app_assoc, Q. cbn [app]. f_equal. destruct q, (c =? 34)%N, (quoted p); reflexivity.
      * intros a b E. rewrite Q. specialize (H (c :: a) b). rewrite quoted_cons in H. rewrite xorb_assoc.
        apply H. rewrite E. reflexivity.
    + symmetry. destruct (N.eqb_spec c sep) as [->|D]; [|reflexivity]. cbn [andb].
      specialize (H [] p eq_refl). cbn in H. rewrite xorb_false_r in H. rewrite Q, H.
      replace (sep =? 34)%N with false by (symmetry; apply N.eqb_neq, Hsep). reflexivity.
Qed.

Lemma split_cuts ps : forall rs, cuts sep rs ps -> split_loop sep false [] rs = ps.
Proof.
  induction ps as [|p ps IH]; intros rs (N & J & E & O); [congruence|].
  assert (P : forall a b, p = a ++ sep :: b -> xorb false (quoted a) = true).
  { intros a b X. rewrite xorb_false_l. exact (O p a b (or_introl eq_refl) X). }
  destruct ps as [|p' ps].
  - cbn in J. subst rs. rewrite <- (app_nil_r p) at 1. rewrite split_pass by exact P. reflexivity.
  - cbn [joined] in J. rewrite <- J. rewrite split_pass by exact P. cbn [xorb app].
    rewrite (E p) by (left; reflexivity). cbn [split_loop].
    replace (sep =? dquote)%N with false by (symmetry; apply N.eqb_neq, Hsep).
    rewrite N.eqb_refl. cbn [andb negb]. f_equal. apply IH. split; [discriminate|]. split; [reflexivity|]. split.
    + intros x X. apply E. right. exact X.
    + intros x a b X. apply O. right. exact X.
Qed.

Lemma cuts_exist rs : forall part q, quoted part = q ->
  (forall a b, part = a ++ sep :: b -> quoted a = true) ->
  exists ps, cuts sep (part ++ rs) ps.
Proof.
  induction rs as [|c rs IH]; intros part q Q O.
  - exists [part]. rewrite app_nil_r. split; [discriminate|]. split; [reflexivity|]. split; [intros p []|].
    intros p a b [<-|[]]. apply O.
  - destruct (N.eq_dec c sep) as [->|D]; [destruct q|].
    + destruct (IH (part ++ [sep]) true) as (ps & C).
      * rewrite quoted_app, quoted_cons. replace (sep =? 34)%N with false by (symmetry; apply N.eqb_neq, Hsep).
        rewrite Q. reflexivity.
      * intros a b E. destruct (list_eq_dec N.eq_dec b []) as [->|B].
        -- apply app_inj_tail in E. destruct E as [<- _]. exact Q.
        -- destruct (exists_last B) as (b' & x & ->). apply (O a b').
           change (a ++ sep :: b' ++ [x]) with (a ++ (sep :: b') ++ [x]) in E. rewrite app_assoc in E.
           apply app_inj_tail in E. tauto.
      * exists ps. rewrite <- app_assoc in C. exact C.
    + destruct (IH [] false eq_refl) as (ps & N & J & E & P); [intros [|] ? X; discriminate X|].
      exists (part :: ps). split; [discriminate|]. split; [|split].
      * destruct ps as [|p ps]; [congruence|]. cbn [joined]. cbn [app] in J. rewrite <- J. reflexivity.
      * destruct ps as [|p ps]; [congruence|]. intros x [<-|X]; [exact Q|apply E; exact X].
      * intros p a b [<-|X]; [apply O|apply P; exact X].
    + destruct (IH (part ++ [c]) (quoted (part ++ [c]))) as (ps & C); [reflexivity| |].
      * intros a b E. destruct (list_eq_dec N.eq_dec b []) as [->|B].
        -- apply app_inj_tail in E. destruct E as [_ E]. congruence.
        -- destruct (exists_last B) as (b' & x & ->). apply (O a b').
           change (a ++ sep :: b' ++ [x]) with (a ++ (sep :: b') ++ [x]) in E. rewrite app_assoc in E.
           apply app_inj_tail in E. tauto.
      * exists ps. rewrite <- app_assoc in C. exact C.
Qed.
End Split.

Lemma split_exact sep rs ps : sep <> 34%N -> Forall scalar rs -> cuts sep rs ps ->
  splitString (encode rs) sep = map encode ps.
Proof. intros S V C. unfold splitString. rewrite runes_encode by exact V. rewrite (split_cuts sep S ps rs C). reflexivity. Qed.

Lemma cuts_total sep rs : sep <> 34%N -> exists ps, cuts sep rs ps.
Proof. intros S. exact (cuts_exist sep S rs [] false eq_refl (fun a b E => match a, E with [], E => ltac:(discriminate E) | _ :: _, E => ltac:(discriminate E) end)). Qed.

Lemma cuts_scalar sep rs ps : Forall scalar rs -> cuts sep rs ps -> Forall (Forall scalar) ps.
Proof.
  intros V (_ & J & _). subst rs. induction ps as [|p ps IH]; [constructor|]. cbn [joined] in V. destruct ps as [|p' ps].
  - constructor; [exact V|constructor].
  - apply Forall_app in V. destruct V as [V1 V2]. inversion V2; subst. constructor; [exact V1|]. apply IH. assumption.
Qed.

(** *** Quotes at the ends *)

Lemma trim_lq_spec s : exists n, s = (quotes n ++ trim_lq s)%string /\ forall r, trim_lq s <> String """" r.
Proof.
  induction s as [|c s (n & E & N)]; [exists 0; split; [reflexivity|discriminate]|]. cbn [trim_lq]. unfold is_quote.
  destruct (Ascii.eqb_spec c """") as [->|D].
  - exists (S n). split; [cbn; rewrite <- E; reflexivity|exact N].
  - exists 0. split; [reflexivity|]. intros r E'. injection E' as E' _. congruence.
Qed.

Lemma quotes_snoc m : (quotes m ++ """")%string = quotes (S m).
Proof. induction m as [|m IH]; [reflexivity|]. cbn in *. rewrite IH. reflexivity. Qed.

Lemma trim_rq_spec s : exists m, s = (trim_rq s ++ quotes m)%string /\ forall p, trim_rq s <> (p ++ """")%string.
Proof.
  assert (Z : forall p : string, "" <> (p ++ """")%string) by (intros [|] E; discriminate E).
  induction s as [|c s (m & E & N)]; [exists 0; split; [reflexivity|exact Z]|].
  cbn [trim_rq]. destruct (trim_rq s) as [|c' t] eqn:T.
  - unfold is_quote. cbn [append] in E. destruct (Ascii.eqb_spec c """") as [->|D].
    + exists (S m). split; [cbn; rewrite E; reflexivity|exact Z].
    + exists m. split; [cbn; rewrite <- E; reflexivity|].
      intros [|x p] X; [injection X as X; congruence|]. injection X as _ X. destruct p; discriminate X.
  - exists m. split; [cbn in *; rewrite E; reflexivity|]. intros [|x p] X; [discriminate X|]. injection X as _ X. exact (N p X).
Qed.

Lemma trim_spec s : stripped s (trim_rq (trim_lq s)).
Proof.
  destruct (trim_lq_spec s) as (n & E1 & N1). destruct (trim_rq_spec (trim_lq s)) as (m & E2 & N2). split.
  - split; [|exact N2]. intros r X. rewrite X in E2. cbn in E2. exact (N1 _ E2).
  - exists n, m. rewrite <- E2. exact E1.
Qed.

Definition noq (s : string) : Prop := all (fun c => negb (is_quote c)) s = true.

Lemma trim_lq_bare s : noq s -> trim_lq s = s.
Proof.
  unfold noq. destruct s as [|c s]; [reflexivity|]. cbn [all trim_lq]. destruct (is_quote c); [discriminate|reflexivity].
Qed.
Lemma trim_rq_bare s : noq s -> trim_rq s = s.
Proof.
  unfold noq. induction s as [|c s IH]; [reflexivity|]. cbn [all trim_rq]. rewrite andb_true_iff. intros [H1 H2].
  rewrite (IH H2). destruct (is_quote c); [discriminate H1|]. destruct s; reflexivity.
Qed.
Lemma trim_rq_end s : noq s -> trim_rq (s ++ """") = s.
Proof.
  unfold noq. induction s as [|c s IH]; [reflexivity|]. cbn [all append trim_rq]. rewrite andb_true_iff. intros [H1 H2].
  rewrite (IH H2). destruct (is_quote c); [discriminate H1|]. destruct s; reflexivity.
Qed.
Lemma trim_lq_in s : noq s -> trim_lq (s ++ """") = match s with "" => "" | _ => (s ++ """")%string end.
Proof.
  unfold noq. destruct s as [|c s]; [reflexivity|]. cbn [all append trim_lq]. destruct (is_quote c); [discriminate|reflexivity].
Qed.

Lemma noq_encode rs : ~ In 34%N rs -> noq (encode rs).
Proof.
  assert (A : forall a b, noq a -> noq b -> noq (a ++ b)).
  { unfold noq. intros a b. rewrite all_app. intros -> ->. reflexivity. }
  assert (B : forall x, (128 <= x < 256)%N -> negb (is_quote (enc x)) = true).
  { intros x H. unfold is_quote. destruct (Ascii.eqb_spec (enc x) """") as [E|]; [|reflexivity].
    apply (f_equal N_of_ascii) in E. unfold enc in E. rewrite N_ascii_embedding in E by lia. cbn in E. lia. }
  assert (M : forall y, (y mod 64 < 64)%N) by (intros; apply N.mod_lt; lia).
  induction rs as [|r rs IH]; intros H; [reflexivity|]. cbn [encode]. apply A; [|apply IH; intros X; apply H; right; exact X].
  assert (R : r <> 34%N) by (intros ->; apply H; left; reflexivity). clear - B M R. unfold noq, encode_rune.
  destruct (N.ltb_spec r 128) as [H|H].
  { cbn [all]. rewrite andb_true_r. unfold is_quote. destruct (Ascii.eqb_spec (enc r) """") as [E|]; [|reflexivity].
    apply (f_equal N_of_ascii) in E. unfold enc in E. rewrite N_ascii_embedding in E by lia. cbn in E. congruence. }
  destruct (N.ltb_spec r 2048) as [H2|H2].
  { assert (D : (r / 64 < 32)%N) by (apply N.div_lt_upper_bound; lia). assert (M1 := M r). cbn [all].
    rewrite !B by lia. reflexivity. }
  destruct (within 55296 57343 r || (1114111 <? r)%N) eqn:W.
  { reflexivity. }
  apply orb_false_iff in W. destruct W as [_ W]. apply N.ltb_ge in W.
  assert (M1 := M r). assert (M2 := M (r / 64)%N). assert (M3 := M (r / 4096)%N).
  destruct (N.ltb_spec r 65536) as [H3|H3].
  { assert (D : (r / 4096 < 16)%N) by (apply N.div_lt_upper_bound; lia). cbn [all]. rewrite !B by lia. reflexivity. }
  assert (D : (r / 262144 < 5)%N) by (apply N.div_lt_upper_bound; lia). cbn [all]. rewrite !B by lia. reflexivity.
Qed.

(** *** Maps *)

Definition entries (kvs : list (list N * list N)) : list (string * string) :=
  map (fun kv => (trim_rq (trim_lq (encode (fst kv))), trim_rq (trim_lq (encode (snd kv))))) kvs.

Lemma parse_run ts : forall kvs m, Forall (Forall scalar) ts -> NoDup (map fst m) ->
  Forall2 (fun t kv => cuts colon t [fst kv; snd kv]) ts kvs ->
  exists m', parse_tuples m (map encode ts) = Ok m' /\ NoDup (map fst m') /\
    forall k v, In (k, v) m' <->
      last_writes (entries kvs) k v \/ (In (k, v) m /\ ~ In k (map fst (entries kvs))).
Proof.
  induction ts as [|t ts IH]; intros kvs m V N F; inversion F as [|? kv ? kvs' C F']; subst.
  - exists m. split; [reflexivity|]. split; [exact N|]. intros k v. cbn. split.
    + intros H. right. split; [exact H|intros []].
    + intros [H|[H _]]; [apply last_key in H; destruct H|exact H].
  - inversion V as [|? ? V1 V2]; subst. cbn [map parse_tuples].
    rewrite (split_exact colon t [fst kv; snd kv]) by (assumption || discriminate). cbn [map].
    set (k0 := trim_rq (trim_lq (encode (fst kv)))). set (v0 := trim_rq (trim_lq (encode (snd kv)))).
    destruct (IH kvs' (put k0 v0 m) V2 (put_keys _ _ _ N) F') as (m' & E1 & E2 & E3).
    exists m'. split; [exact E1|]. split; [exact E2|]. intros k v. rewrite E3. cbn [entries map]. fold (entries kvs'). fold k0 v0.
    rewrite last_cons, (put_iff _ _ _ _ _ N). cbn [map fst In].
    generalize (entries kvs') k0 v0. clear. intros ps k0 v0. split.
    + intros [H|[[[-> ->]|[D H]] H2]]; [tauto|tauto|]. right. split; [exact H|]. intros [E|E]; [congruence|tauto].
    + intros [[H|[-> [-> H]]]|[H D]]; [tauto|right; split; [left; tauto|exact H]|].
      right. split; [right; split; [|exact H]|]; [intros ->; tauto|tauto].
Qed.

Lemma map_exact rs : Forall scalar rs -> exists ts, cuts comma rs ts /\
  ((exists kvs ps m, Forall2 (fun t kv => cuts colon t [fst kv; snd kv]) ts kvs /\
      Forall2 (fun kv p => stripped (encode (fst kv)) (fst p) /\ stripped (encode (snd kv)) (snd p)) kvs ps /\
      parseCommandlineMap (encode rs) = Ok m /\ NoDup (map fst m) /\
      forall k v, In (k, v) m <-> last_writes ps k v) \/
   (exists a t b qs, ts = a ++ t :: b /\ Forall (fun t => exists k v, cuts colon t [k; v]) a /\
      cuts colon t qs /\ length qs <> 2 /\
      parseCommandlineMap (encode rs) = Err (mkErr [] ("expected key:value, got :" ++ encode t)%string))).
Proof.
  intros V. destruct (cuts_total comma rs) as (ts & C); [discriminate|]. exists ts. split; [exact C|].
  assert (VT := cuts_scalar _ _ _ V C).
  assert (D : (exists kvs, Forall2 (fun t kv => cuts colon t [fst kv; snd kv]) ts kvs) \/
    exists a t b qs, ts = a ++ t :: b /\ Forall (fun t => exists k v, cuts colon t [k; v]) a /\ cuts colon t qs /\ length qs <> 2).
  { clear. induction ts as [|t ts IH]; [left; exists []; constructor|].
    destruct (cuts_total colon t) as (qs & Q); [discriminate|].
    destruct (Nat.eq_dec (length qs) 2) as [L|L].
    - destruct qs as [|k [|v [|]]]; try discriminate L. destruct IH as [(kvs & F)|(a & t' & b & qs & -> & A & H)].
      + left. exists ((k, v) :: kvs). constructor; assumption.
      + right. exists (t :: a), t', b, qs. split; [reflexivity|]. split; [constructor; [eauto|exact A]|exact H].
    - right. exists [], t, ts, qs. split; [reflexivity|]. split; [constructor|]. split; assumption. }
  unfold parseCommandlineMap. rewrite (split_exact comma rs ts) by (assumption || discriminate).
  destruct D as [(kvs & F)|(a & t & b & qs & -> & A & Q & L)]; [left|right].
  - destruct (parse_run ts kvs [] VT (NoDup_nil _) F) as (m & E1 & E2 & E3). exists kvs, (entries kvs), m.
    split; [exact F|]. split; [|split; [exact E1|split; [exact E2|intros k v; rewrite E3; cbn; tauto]]].
    unfold entries. clear. induction kvs; constructor; [split; apply trim_spec|assumption].
  - exists a, t, b, qs. split; [reflexivity|]. split; [exact A|]. split; [exact Q|]. split; [exact L|].
    clear C V. revert VT. generalize (@nil (string * string)). induction A as [|t' a (k & v & K) A IH]; intros m VT.
    + cbn [app map parse_tuples]. inversion VT; subst. rewrite (split_exact colon t qs) by (assumption || discriminate).
      destruct qs as [|x [|y [|z qs]]]; try reflexivity. destruct L. reflexivity.
    + cbn [app map parse_tuples]. inversion VT; subst. rewrite (split_exact colon t' [k; v]) by (assumption || discriminate).
      cbn [map]. apply IH. assumption.
Qed.

(** Writing a map. *)
Definition plain (x : list N) : Prop := ~ In comma x /\ ~ In colon x.
Definition written (x w : list N) : Prop := (plain x /\ w = x) \/ w = 34%N :: x ++ [34%N].
Definition text (x : list N) : Prop := Forall scalar x /\ ~ In 34%N x.

Lemma text_quotes x : ~ In 34%N x -> quoted x = false.
Proof. intros H. unfold quoted. rewrite (proj1 (count_occ_not_In N.eq_dec x 34%N) H). reflexivity. Qed.

Lemma written_even x w : text x -> written x w -> quoted w = false.
Proof.
  intros [_ T] [[_ ->]| ->]; [apply text_quotes, T|]. rewrite quoted_cons, quoted_app, (text_quotes x T). reflexivity.
Qed.

Lemma written_safe sep x w : (sep = comma \/ sep = colon) -> text x -> written x w ->
  forall a b, w = a ++ sep :: b -> quoted a = true.
Proof.
  intros S [_ T] [[[P1 P2] ->]| ->] a b E.
  - exfalso. assert (I : In sep x) by (rewrite E; apply in_or_app; right; left; reflexivity). destruct S as [-> | ->]; tauto.
  - destruct a as [|c a]; [exfalso; injection E as E _; destruct S as [-> | ->]; discriminate E|].
    injection E as <- E. rewrite quoted_cons. replace (quoted a) with false; [reflexivity|].
    symmetry. apply text_quotes. intros I. destruct (list_eq_dec N.eq_dec b []) as [->|B].
    + apply app_inj_tail in E. destruct E as [_ E]. destruct S as [-> | ->]; discriminate E.
    + destruct (exists_last B) as (b' & z & ->). change (a ++ sep :: b' ++ [z]) with (a ++ (sep :: b') ++ [z]) in E.
      rewrite app_assoc in E. apply app_inj_tail in E. destruct E as [E _]. apply T. rewrite E. apply in_or_app. left. exact I.
Qed.

Lemma written_trim x w : text x -> written x w -> trim_rq (trim_lq (encode w)) = encode x.
Proof.
  intros [_ T] W. assert (N := noq_encode x T). destruct W as [[_ ->]| ->].
  - rewrite trim_lq_bare by exact N. apply trim_rq_bare, N.
  - cbn [encode app]. rewrite encode_app. change (encode_rune 34) with """". change (encode [34%N]) with """".
    cbn [append trim_lq is_quote Ascii.eqb Bool.eqb]. change (is_quote """") with true. cbv iota.
    rewrite trim_lq_in by exact N. destruct (encode x) eqn:E; [reflexivity|]. rewrite <- E in *. apply trim_rq_end, N.
Qed.

Lemma tuple_cuts k v wk wv : text k -> text v -> written k wk -> written v wv ->
  cuts colon (wk ++ colon :: wv) [wk; wv].
Proof.
  intros Tk Tv Wk Wv. split; [discriminate|]. split; [reflexivity|]. split.
  - intros p [<-|[]]. exact (written_even _ _ Tk Wk).
  - intros p a b [<-|[<-|[]]]; [exact (written_safe colon _ _ (or_intror eq_refl) Tk Wk a b)
                               |exact (written_safe colon _ _ (or_intror eq_refl) Tv Wv a b)].
Qed.

(** One entry of a map and how it is written. *)
Definition entry_written (kv : list N * list N) (t : list N) : Prop :=
  text (fst kv) /\ text (snd kv) /\
  exists wk wv, written (fst kv) wk /\ written (snd kv) wv /\ t = wk ++ colon :: wv.

Lemma entry_even kv t : entry_written kv t -> quoted t = false.
Proof.
  intros (Tk & Tv & wk & wv & Wk & Wv & ->). rewrite quoted_app, quoted_cons.
  rewrite (written_even _ _ Tk Wk), (written_even _ _ Tv Wv). reflexivity.
Qed.

Lemma entry_safe kv t : entry_written kv t -> forall a b, t = a ++ comma :: b -> quoted a = true.
Proof.
  intros (Tk & Tv & wk & wv & Wk & Wv & ->) a b E.
  destruct (Nat.lt_ge_cases (length a) (length wk)) as [L|L].
  - apply (written_safe comma _ _ (or_introl eq_refl) Tk Wk a (skipn (S (length a)) wk)).
    assert (F : firstn (S (length a)) (wk ++ colon :: wv) = a ++ [comma]).
    { rewrite E. rewrite firstn_app, firstn_all2 by lia. replace (S (length a) - length a) with 1 by lia. reflexivity. }
    rewrite firstn_app in F. replace (S (length a) - length wk) with 0 in F by lia. rewrite firstn_O, app_nil_r in F.
    rewrite <- (firstn_skipn (S (length a)) wk) at 1. rewrite F, <- app_assoc. reflexivity.
  - assert (A : exists a', a = wk ++ a' /\ colon :: wv = a' ++ comma :: b).
    { exists (skipn (length wk) a). assert (F : firstn (length wk) a = wk).
      { assert (G : firstn (length wk) (a ++ comma :: b) = wk) by (rewrite <- E, firstn_app, firstn_all, Nat.sub_diag; cbn; apply app_nil_r).
        rewrite firstn_app in G. replace (length wk - length a) with 0 in G by lia. cbn in G. rewrite app_nil_r in G. exact G. }
      assert (A : a = wk ++ skipn (length wk) a) by (rewrite <- F at 1; symmetry; apply firstn_skipn).
      split; [exact A|]. rewrite A, <- app_assoc in E. apply app_inv_head in E. exact E. }
    destruct A as (a' & -> & E'). destruct a' as [|c a']; [discriminate E'|]. injection E' as <- E'.
    rewrite quoted_app, quoted_cons, (written_even _ _ Tk Wk).
    rewrite (written_safe comma _ _ (or_introl eq_refl) Tv Wv a' b E'). reflexivity.
Qed.

Lemma map_round kvs ts : kvs <> [] -> Forall2 entry_written kvs ts ->
  exists m, parseCommandlineMap (encode (joined comma ts)) = Ok m /\ NoDup (map fst m) /\
    forall k v, In (k, v) m <-> last_writes (map (fun kv => (encode (fst kv), encode (snd kv))) kvs) k v.
Proof.
  intros Ne F.
  assert (C : cuts comma (joined comma ts) ts).
  { split; [destruct F; [congruence|discriminate]|]. split; [reflexivity|].
    assert (A : forall t, In t ts -> exists kv, entry_written kv t).
    { clear - F. induction F as [|kv t kvs ts H F IH]; [intros t []|]. intros t' [<-|I]; eauto. }
    split.
    - intros t I. assert (I' : In t ts).
      { clear - I. induction ts as [|x ts IH]; [exact I|]. cbn [removelast] in I. destruct ts as [|y ts]; [destruct I|].
        destruct I as [<-|I]; [left; reflexivity|right; apply IH, I]. }
      destruct (A t I') as (kv & W). exact (entry_even kv t W).
    - intros t a b I. destruct (A t I) as (kv & W). exact (entry_safe kv t W a b). }
  assert (VT : Forall (Forall scalar) ts).
  { clear - F. induction F as [|kv t kvs ts (Tk & Tv & wk & wv & Wk & Wv & ->) F IH]; [constructor|]. constructor; [|exact IH].
    assert (S : forall x w, text x -> written x w -> Forall scalar w).
    { assert (Q : scalar 34) by (left; lia). intros x w [V _] [[_ ->]| ->]; [exact V|]. constructor; [exact Q|].
      apply Forall_app. split; [exact V|constructor; [exact Q|constructor]]. }
    apply Forall_app. split; [exact (S _ _ Tk Wk)|]. constructor; [left; unfold colon; lia|exact (S _ _ Tv Wv)]. }
  assert (V : Forall scalar (joined comma ts)).
  { clear - VT. induction VT as [|t ts V VT IH]; [constructor|]. cbn [joined]. destruct ts as [|t' ts]; [exact V|].
    apply Forall_app. split; [exact V|]. constructor; [left; unfold comma; lia|exact IH]. }
  assert (K : exists ws, Forall2 (fun t kv => cuts colon t [fst kv; snd kv]) ts ws /\
    entries ws = map (fun kv => (encode (fst kv), encode (snd kv))) kvs).
  { clear - F. induction F as [|kv t kvs ts (Tk & Tv & wk & wv & Wk & Wv & ->) F (ws & F' & E)]; [exists []; split; [constructor|reflexivity]|].
    exists ((wk, wv) :: ws). split; [constructor; [exact (tuple_cuts _ _ _ _ Tk Tv Wk Wv)|exact F']|].
    cbn [entries map fst snd]. rewrite (written_trim _ _ Tk Wk), (written_trim _ _ Tv Wv). f_equal. exact E. }
  destruct K as (ws & F' & E). unfold parseCommandlineMap. rewrite (split_exact comma _ ts) by (assumption || discriminate).
  destruct (parse_run ts ws [] VT (NoDup_nil _) F') as (m & E1 & E2 & E3). exists m. split; [exact E1|]. split; [exact E2|].
  intros k v. rewrite E3, E. cbn. tauto.
Qed.

(** What cannot be given: the empty map, and a key or value with a quote at an end. *)
Lemma put_ne {A} k (v : A) m : put k v m <> [].
Proof. destruct m as [|[k' w] m]; cbn; [discriminate|]. destruct (String.eqb k k'); discriminate. Qed.

Lemma split_ne s sep : splitString s sep <> [].
Proof.
  unfold splitString. generalize false, (@nil N). induction (runes s) as [|c r IH]; intros q part; cbn [split_loop]; [discriminate|].
  destruct (_ && _)%bool; [discriminate|apply IH].
Qed.

Lemma parse_bare ts : forall m m', parse_tuples m ts = Ok m' ->
  Forall (fun kv => bare (fst kv) /\ bare (snd kv)) m -> Forall (fun kv => bare (fst kv) /\ bare (snd kv)) m'.
Proof.
  induction ts as [|t ts IH]; intros m m' E F; [injection E as <-; exact F|]. cbn [parse_tuples] in E.
  destruct (splitString t colon) as [|k [|v [|]]]; try discriminate E. apply (IH _ _ E).
  apply Forall_forall. intros x I. apply put_in in I. destruct I as [->|I]; [|rewrite Forall_forall in F; exact (F x I)].
  cbn. split; apply trim_spec.
Qed.

Lemma map_limits src m : parseCommandlineMap src = Ok m ->
  m <> [] /\ Forall (fun kv => bare (fst kv) /\ bare (snd kv)) m.
Proof.
  unfold parseCommandlineMap. intros E. split; [|exact (parse_bare _ _ _ E (Forall_nil _))].
  assert (G : forall ts m m', parse_tuples m ts = Ok m' -> (m <> [] \/ ts <> []) -> m' <> []).
  { clear. induction ts as [|t ts IH]; intros m m' E [H|H]; try congruence; cbn [parse_tuples] in E;
      try (injection E as <-; exact H); destruct (splitString t colon) as [|k [|v [|]]]; try discriminate E;
      apply (IH _ _ E); left; apply put_ne. }
  apply (G _ _ _ E). right. apply split_ne.
Qed.

(** *** Lists *)

Fixpoint commas (ps : list string) : string :=
  match ps with
  | [] => ""
  | [p] => p
  | p :: r => (p ++ String "," (commas r))%string
  end.

(** A space, as a separate set of characters. *)
Definition space (c : ascii) : Prop :=
  In (nat_of_ascii c) [9; 10; 11; 12; 13; 32].
Fixpoint chars (s : string) : list ascii := match s with "" => [] | String c r => c :: chars r end.
Definition spaces (s : string) : Prop := Forall space (chars s).

(** [x] is [p] without the spaces at its ends. *)
Definition trimmed (p x : string) : Prop :=
  (exists a b, spaces a /\ spaces b /\ p = (a ++ x ++ b)%string) /\
  (forall c r, x = String c r -> ~ space c) /\ (forall r c, x = (r ++ String c "")%string -> ~ space c).

Lemma is_space_iff c : is_space c = true <-> space c.
Proof.
  destruct c as [[] [] [] [] [] [] [] []]; cbv; split; intros H; try discriminate H; try reflexivity; try (repeat (first [left; reflexivity|right]));
    repeat (destruct H as [H|H]; [discriminate H|]); destruct H.
Qed.

Lemma chars_app a b : chars (a ++ b) = chars a ++ chars b.
Proof. induction a as [|c a IH]; [reflexivity|]. cbn. rewrite IH. reflexivity. Qed.

Lemma trim_ls_spec s : (exists a, spaces a /\ s = (a ++ trim_ls s)%string) /\ forall c r, trim_ls s = String c r -> ~ space c.
Proof.
  induction s as [|c s ((a & A & E) & N)]; [split; [exists ""; split; [constructor|reflexivity]|discriminate]|].
  cbn [trim_ls]. destruct (is_space c) eqn:W.
  - split; [|exact N]. exists (String c a). split; [constructor; [apply is_space_iff, W|exact A]|]. cbn. rewrite <- E. reflexivity.
  - split; [exists ""; split; [constructor|reflexivity]|]. intros c' r [= <- _] H. apply is_space_iff in H. congruence.
Qed.

Lemma trim_rs_spec s : (exists b, spaces b /\ s = (trim_rs s ++ b)%string) /\
  (forall r c, trim_rs s = (r ++ String c "")%string -> ~ space c) /\
  forall c r, trim_rs s = String c r -> exists r', s = String c r'.
Proof.
  assert (Z : forall r c, "" = (r ++ String c "")%string -> ~ space c) by (intros [|] c E; discriminate E).
  induction s as [|c s ((b & B & E) & N & _)].
  { split; [exists ""; split; [constructor|reflexivity]|]. split; [exact Z|discriminate]. }
  cbn [trim_rs]. destruct (trim_rs s) as [|c' t] eqn:T.
  - cbn [append] in E. destruct (is_space c) eqn:W.
    + split; [exists (String c b); split; [constructor; [apply is_space_iff, W|exact B]|cbn; rewrite E; reflexivity]|].
      split; [exact Z|discriminate].
    + split; [exists b; split; [exact B|cbn; rewrite <- E; reflexivity]|]. split.
      * intros [|x r] d X; [injection X as <-|injection X as _ X; destruct r; discriminate X].
        intros H. apply is_space_iff in H. congruence.
      * intros d r [= <- _]. eauto.
  - split; [exists b; split; [exact B|cbn in *; rewrite E; reflexivity]|]. split.
    + intros [|x r] d X; [discriminate X|]. injection X as _ X. exact (N r d X).
    + intros d r [= <- _]. eauto.
Qed.

Lemma trimSpace_spec s : trimmed s (trimSpace s).
Proof.
  unfold trimSpace. destruct (trim_ls_spec s) as ((a & A & E1) & N1). destruct (trim_rs_spec (trim_ls s)) as ((b & B & E2) & N2 & P).
  split; [|split].
  - exists a, b. split; [exact A|]. split; [exact B|]. rewrite <- E2. exact E1.
  - intros c r X. destruct (P c r X) as (r' & E). exact (N1 c r' E).
  - exact N2.
Qed.

Lemma trim_ls_spaces a s : spaces a -> trim_ls (a ++ s) = trim_ls s.
Proof.
  unfold spaces. induction a as [|c a IH]; intros H; [reflexivity|]. inversion H as [|? ? S1 S2]; subst. cbn [append trim_ls].
  rewrite (proj2 (is_space_iff c) S1). apply IH, S2.
Qed.

Lemma trim_rs_all b : spaces b -> trim_rs b = "".
Proof.
  unfold spaces. induction b as [|c b IH]; intros H; [reflexivity|]. inversion H as [|? ? S1 S2]; subst. cbn [trim_rs].
  rewrite (IH S2), (proj2 (is_space_iff c) S1). reflexivity.
Qed.
Lemma trim_rs_spaces s b : spaces b -> trim_rs (s ++ b) = trim_rs s.
Proof.
  intros B. induction s as [|c s IH]; [exact (trim_rs_all b B)|]. cbn [append trim_rs]. rewrite IH. reflexivity.
Qed.
Lemma trim_ls_all b : spaces b -> trim_ls b = "".
Proof.
  unfold spaces. induction b as [|c b IH]; intros H; [reflexivity|]. inversion H as [|? ? S1 S2]; subst. cbn [trim_ls].
  rewrite (proj2 (is_space_iff c) S1). exact (IH S2).
Qed.

Lemma trim_start a s : spaces a -> trimSpace (a ++ s) = trimSpace s.
Proof. intros A. unfold trimSpace. rewrite trim_ls_spaces by exact A. reflexivity. Qed.

Lemma trim_end s b : spaces b -> trimSpace (s ++ b) = trimSpace s.
Proof.
  intros B. unfold trimSpace. induction s as [|c s IH]; [cbn [append]; rewrite trim_ls_all by exact B; reflexivity|].
  cbn [append trim_ls]. destruct (is_space c); [exact IH|].
  change (String c (s ++ b)) with (String c s ++ b)%string. apply trim_rs_spaces, B.
Qed.

Lemma split_start a s : spaces a -> map trimSpace (split_on "," (a ++ s)) = map trimSpace (split_on "," s).
Proof.
  unfold spaces. induction a as [|c a IH]; intros H; [reflexivity|]. inversion H as [|? ? S1 S2]; subst. specialize (IH S2).
  cbn [append split_on]. destruct (Ascii.eqb_spec c ",") as [->|D].
  { exfalso. apply is_space_iff in S1. discriminate S1. }
  rewrite <- IH. destruct (split_on "," (a ++ s)) as [|p ps] eqn:E; [exfalso; exact (split_on_ne _ _ E)|].
  cbn [map]. f_equal. apply (trim_start (String c "") p). constructor; [exact S1|constructor].
Qed.

Lemma split_spaces b : spaces b -> split_on "," b = [b].
Proof.
  unfold spaces. induction b as [|c b IH]; intros H; [reflexivity|]. inversion H as [|? ? S1 S2]; subst. cbn [split_on].
  destruct (Ascii.eqb_spec c ",") as [->|D]; [exfalso; apply is_space_iff in S1; discriminate S1|]. rewrite (IH S2). reflexivity.
Qed.

Lemma split_end s b : spaces b -> map trimSpace (split_on "," (s ++ b)) = map trimSpace (split_on "," s).
Proof.
  intros B. enough (G : exists ps p, split_on "," s = ps ++ [p] /\ split_on "," (s ++ b) = ps ++ [(p ++ b)%string]).
  { destruct G as (ps & p & -> & ->). rewrite !map_app. cbn [map]. rewrite trim_end by exact B. reflexivity. }
  induction s as [|c s (ps & p & E1 & E2)].
  - exists [], "". split; [reflexivity|]. cbn [append]. rewrite split_spaces by exact B. reflexivity.
  - cbn [append split_on]. destruct (Ascii.eqb c ",").
    + exists ("" :: ps), p. rewrite E1, E2. split; reflexivity.
    + rewrite E1, E2. destruct ps as [|q ps].
      * exists [], (String c p). split; reflexivity.
      * exists (String c q :: ps), p. split; reflexivity.
Qed.

Lemma split_commas ps : ps <> [] -> Forall (fun p => ~ In ","%char (chars p)) ps -> split_on "," (commas ps) = ps.
Proof.
  assert (H : forall p, ~ In ","%char (chars p) -> has_char "," p = false).
  { induction p as [|c p IH]; intros N; [reflexivity|]. cbn [has_char]. rewrite IH by (intros X; apply N; right; exact X).
    destruct (Ascii.eqb_spec c ",") as [->|D]; [destruct N; left; reflexivity|]. reflexivity. }
  intros Ne F. induction F as [|p ps N F IH]; [congruence|]. destruct ps as [|q ps].
  - cbn [commas]. apply split_on_nochar, H, N.
  - change (commas (p :: q :: ps)) with (p ++ String "," (commas (q :: ps)))%string.
    rewrite split_on_app by (apply H, N). f_equal. apply IH. discriminate.
Qed.

Lemma commas_exist s : exists ps, ps <> [] /\ commas ps = s /\ Forall (fun p => ~ In ","%char (chars p)) ps.
Proof.
  induction s as [|c s (ps & N & E & F)].
  { exists [""]. split; [discriminate|]. split; [reflexivity|]. constructor; [intros []|constructor]. }
  destruct (Ascii.eqb_spec c ",") as [->|D].
  - exists ("" :: ps). split; [discriminate|]. split; [|constructor; [intros []|exact F]].
    destruct ps; [congruence|]. rewrite <- E. reflexivity.
  - destruct ps as [|p ps]; [congruence|]. exists (String c p :: ps). split; [discriminate|]. inversion F; subst.
    split; [destruct ps; reflexivity|]. constructor; [|assumption]. intros [X|X]; [congruence|tauto].
Qed.

Lemma list_exact input : exists ps xs, ps <> [] /\ commas ps = input /\
  Forall (fun p => ~ In ","%char (chars p)) ps /\ Forall2 trimmed ps xs /\
  parseCommandLineList input = filter (fun x => negb (String.eqb x "")) xs.
Proof.
  destruct (commas_exist input) as (ps & N & E & F). exists ps, (map trimSpace ps).
  split; [exact N|]. split; [exact E|]. split; [exact F|]. split.
  { clear. induction ps; constructor; [apply trimSpace_spec|assumption]. }
  assert (G : map trimSpace (split_on "," (trimSpace input)) = map trimSpace ps).
  { unfold trimSpace at 2. destruct (trim_ls_spec input) as ((a & A & E1) & _).
    destruct (trim_rs_spec (trim_ls input)) as ((b & B & E2) & _).
    rewrite <- (split_end _ b B), <- E2, <- (split_start a _ A), <- E1, <- E, split_commas by assumption. reflexivity. }
  unfold parseCommandLineList. rewrite G. destruct (String.eqb_spec (trimSpace input) "") as [Z|]; [|reflexivity].
  rewrite Z in G. rewrite <- G. reflexivity.
Qed.

Lemma trimmed_self x : (forall c r, x = String c r -> ~ space c) -> (forall r c, x = (r ++ String c "")%string -> ~ space c) ->
  trimSpace x = x.
Proof.
  intros L R. unfold trimSpace. replace (trim_ls x) with x.
  - induction x as [|c x IH]; [reflexivity|]. cbn [trim_rs]. destruct x as [|c' x].
    + cbn. destruct (is_space c) eqn:W; [|reflexivity]. exfalso. apply (L c "" eq_refl). apply is_space_iff, W.
    + clear L. assert (G : forall y, (forall r c, y = (r ++ String c "")%string -> ~ space c) -> trim_rs y = y).
      { clear. induction y as [|c y IH]; intros R; [reflexivity|]. cbn [trim_rs]. rewrite IH.
        - destruct y; [|reflexivity]. destruct (is_space c) eqn:W; [|reflexivity].
          exfalso. apply (R "" c eq_refl). apply is_space_iff, W.
        - intros r d ->. apply (R (String c r) d). reflexivity. }
      rewrite G by (intros r d E; apply (R (String c r) d); rewrite E; reflexivity). reflexivity.
  - destruct x as [|c x]; [reflexivity|]. cbn [trim_ls]. destruct (is_space c) eqn:W; [|reflexivity].
    exfalso. apply (L c x eq_refl). apply is_space_iff, W.
Qed.

(** Words with any spaces around them come back. *)
Lemma list_round xs ps : xs <> [] -> Forall (fun x => x <> "" /\ ~ In ","%char (chars x)) xs -> Forall2 trimmed ps xs ->
  parseCommandLineList (commas ps) = xs.
Proof.
  intros N F T.
  assert (C : Forall (fun p => ~ In ","%char (chars p)) ps).
  { clear N. induction T as [|p x ps xs ((a & b & A & B & ->) & _) T IH]; [constructor|]. inversion F as [|? ? [_ X] F']; subst.
    constructor; [|exact (IH F')]. assert (Z : forall s, spaces s -> ~ In ","%char (chars s)).
    { unfold spaces. intros s S I. rewrite Forall_forall in S. specialize (S _ I). apply is_space_iff in S. discriminate S. }
    rewrite !chars_app, !in_app_iff. intros [I|[I|I]]; [exact (Z a A I)|tauto|exact (Z b B I)]. }
  assert (P : ps <> []) by (intros ->; inversion T; congruence).
  destruct (list_exact (commas ps)) as (ps' & xs' & N' & E & F' & T' & R). rewrite R.
  apply (f_equal (split_on ",")) in E. rewrite !split_commas in E by assumption. subst ps'.
  assert (U : forall p x, trimmed p x -> trimSpace p = x).
  { intros p x ((a & b & A & B & ->) & L & Rr). rewrite trim_start by exact A. rewrite trim_end by exact B. apply trimmed_self; assumption. }
  assert (X : xs' = xs).
  { clear - T T' U. revert xs' T'. induction T as [|p x ps xs H T IH]; intros xs' T'; inversion T' as [|? x' ? xs'' H' T'']; subst; [reflexivity|].
    rewrite <- (U _ _ H), (U _ _ H'). f_equal. apply IH, T''. }
  subst xs'. clear - F. induction F as [|x xs [X _] F IH]; [reflexivity|]. cbn [filter].
  destruct (String.eqb_spec x "") as [->|]; [congruence|]. cbn [negb]. rewrite IH. reflexivity.
Qed.

(** *** Cases *)

Lemma cuts_fun sep rs ps ps' : sep <> 34%N -> cuts sep rs ps -> cuts sep rs ps' -> ps = ps'.
Proof. intros S A B. rewrite <- (split_cuts sep S ps rs A). exact (split_cuts sep S ps' rs B). Qed.

Ltac no34 := let H := fresh in intros H; cbn in H; repeat (destruct H as [H|H]; [discriminate H|]); exact H.
Ltac scalars := cbn; repeat (constructor; [left; reflexivity|]); constructor.

Lemma entry_case : entry_written (runes "k,1", runes "http:é") (runes """k,1"":""http:é""").
Proof.
  vm_compute runes. split; [split; [scalars|no34]|]. split; [split; [scalars|no34]|].
  eexists _, _. split; [right; reflexivity|]. split; [right; reflexivity|]. reflexivity.
Qed.

Lemma cuts_case : cuts 44 (runes "a,""b,c"",d") [runes "a"; runes """b,c"""; runes "d"].
Proof.
  split; [discriminate|]. split; [reflexivity|]. split.
  - intros p [<-|[<-|[]]]; reflexivity.
  - intros p a b [<-|[<-|[<-|[]]]]; vm_compute runes.
    + destruct a as [|? [|]]; discriminate.
    + destruct a as [|? [|? [|? [|? [|? [|]]]]]]; intros E; try discriminate E. injection E as <- <-. reflexivity.
    + destruct a as [|? [|]]; discriminate.
Qed.

Lemma trimmed_case : Forall2 trimmed [" types "; "a b"] ["types"; "a b"].
Proof.
  assert (G : forall s x, trimSpace s = x -> trimmed s x) by (intros s x <-; apply trimSpace_spec).
  constructor; [apply G; reflexivity|]. constructor; [apply G; reflexivity|]. constructor.
Qed.

Lemma map_refuted : exists m : list (string * string), NoDup (map fst m) /\ forall src, parseCommandlineMap src <> Ok m.
Proof. exists []. split; [constructor|]. intros src E. apply map_limits in E. destruct E as [E _]. congruence. Qed.

Lemma quote_refuted : exists k v, forall src m, parseCommandlineMap src = Ok m -> ~ In (k, v) m.
Proof.
  exists "say ""hi""", "x". intros src m E I. apply map_limits in E. destruct E as [_ F]. rewrite Forall_forall in F.
  destruct (F _ I) as [[_ B] _]. exact (B "say ""hi" eq_refl).
Qed.
