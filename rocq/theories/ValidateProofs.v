(** Proofs about validation errors. *)
From Verif Require Import Prelude Version Search Strings ValidateErr Native Split Lineage WalkProofs Toy.
Local Open Scope string_scope.
Local Open Scope list_scope.

Local Opaque ascii_dec.

(** *** String facts *)
Lemma sapp_assoc (a b c : string) : ((a ++ b) ++ c = a ++ (b ++ c))%string.
Proof. induction a as [|x a IH]; cbn; [reflexivity|]. rewrite IH. reflexivity. Qed.

Lemma sapp_nil (a : string) : (a ++ "" = a)%string.
Proof. induction a as [|x a IH]; cbn; [reflexivity|]. rewrite IH. reflexivity. Qed.

Lemma prefix_app p s t : String.prefix p s = true -> String.prefix p (s ++ t) = true.
Proof.
  revert s. induction p as [|a p IH]; intros [|b s] H; cbn in *; try discriminate; auto.
  - destruct t; reflexivity.
  - destruct (ascii_dec a b); [auto|discriminate].
Qed.

Lemma prefix_self p t : String.prefix p (p ++ t) = true.
Proof.
  induction p as [|a p IH]; cbn; [destruct t; reflexivity|].
  destruct (ascii_dec a a); [exact IH|contradiction].
Qed.

Lemma contains_l s p t : contains s p = true -> contains (s ++ t) p = true.
Proof.
  induction s as [|a s IH]; intros H.
  - cbn in H. rewrite orb_false_r in H. destruct p; [|discriminate]. destruct t; reflexivity.
  - cbn [contains append] in *. apply orb_prop in H as [H|H].
    + change (String a (s ++ t)) with (String a s ++ t)%string. rewrite (prefix_app _ _ t H). reflexivity.
    + rewrite (IH H). apply orb_true_r.
Qed.

Lemma contains_r s p t : contains s p = true -> contains (t ++ s) p = true.
Proof.
  induction t as [|a t IH]; intros H; cbn [append]; [exact H|].
  cbn [contains]. rewrite (IH H). apply orb_true_r.
Qed.

Lemma contains_self p t : contains (p ++ t) p = true.
Proof.
  destruct p as [|a p]; [destruct t; reflexivity|]. cbn [append contains].
  change (String a (p ++ t)) with (String a p ++ t)%string. rewrite prefix_self. reflexivity.
Qed.

(** *** Splitting at " | " *)
Notation bar := " | ".

Lemma split_nil : split_str "" bar = [""].
Proof. reflexivity. Qed.

Lemma split_bar r : split_str (bar ++ r) bar = "" :: split_str r bar.
Proof. destruct r; reflexivity. Qed.

Lemma split_cons c r : String.prefix bar (String c r) = false ->
  split_str (String c r) bar =
  match split_str r bar with p :: ps => String c p :: ps | [] => [String c ""] end.
Proof. intros H. unfold split_str at 1. cbn [split_aux]. rewrite H. reflexivity. Qed.

Lemma split_ne s : split_str s bar <> [].
Proof.
  destruct s as [|c r]; [discriminate|]. unfold split_str. cbn [split_aux].
  destruct (String.prefix _ _); [discriminate|]. destruct (split_aux bar 0 r); discriminate.
Qed.

(** A part that is followed by a separator. *)
Definition inner_part (p : string) : Prop := contains (p ++ " ") bar = false.

Lemma prefix_bar_app c p rest :
  String.prefix bar (String c p ++ " ") = false ->
  String.prefix bar (String c p ++ bar ++ rest) = false.
Proof.
  destruct p as [|d [|e p]].
  - intros _. cbn. destruct (ascii_dec " " c); reflexivity.
  - cbn. destruct (ascii_dec " " c); [|reflexivity]. destruct (ascii_dec "|" d); [|reflexivity].
    destruct (ascii_dec " " " "); [discriminate|reflexivity].
  - cbn. destruct (ascii_dec " " c); [|reflexivity]. destruct (ascii_dec "|" d); [|reflexivity].
    destruct (ascii_dec " " e); [|reflexivity]. destruct p; discriminate.
Qed.

Lemma split_part p rest : inner_part p ->
  split_str (p ++ bar ++ rest) bar = p :: split_str rest bar.
Proof.
  unfold inner_part. induction p as [|c p IH]; intros H; [apply split_bar|].
  cbn [append contains] in H. apply orb_false_iff in H as [H1 H2].
  change (String c p ++ bar ++ rest)%string with (String c (p ++ bar ++ rest)).
  rewrite split_cons.
  - rewrite (IH H2). reflexivity.
  - exact (prefix_bar_app c p rest H1).
Qed.

Lemma split_last p : contains p bar = false -> split_str p bar = [p].
Proof.
  induction p as [|c p IH]; intros H; [reflexivity|].
  cbn [contains] in H. apply orb_false_iff in H as [H1 H2].
  rewrite split_cons by exact H1. rewrite (IH H2). reflexivity.
Qed.

(** The alternatives of a disjunction as printed: separators are found left to
    right. *)
Fixpoint alternatives (ps : list string) : Prop :=
  match ps with
  | [] => False
  | [p] => contains p bar = false
  | p :: r => inner_part p /\ alternatives r
  end.

Lemma join2 sep p q ps : join sep (p :: q :: ps) = (p ++ sep ++ join sep (q :: ps))%string.
Proof. reflexivity. Qed.

Lemma split_join ps : alternatives ps -> split_str (join bar ps) bar = ps.
Proof.
  induction ps as [|p ps IH]; intros H; [destruct H|].
  destruct ps as [|q ps].
  - cbn. apply split_last. exact H.
  - destruct H as [H1 H2]. rewrite join2, (split_part _ _ H1). rewrite IH by exact H2. reflexivity.
Qed.

Lemma alternatives_exist n : forall s, (String.length s <= n)%nat ->
  alternatives (split_str s bar) /\ join bar (split_str s bar) = s.
Proof.
  induction n as [|n IH]; intros s Hn.
  - destruct s; [|cbn in Hn; lia]. cbn. auto.
  - destruct s as [|c r]; [cbn; auto|].
    destruct (String.prefix bar (String c r)) eqn:P.
    + assert (exists t, String c r = (bar ++ t)%string) as [t Ht].
      { cbn in P. destruct (ascii_dec " " c); [subst c|discriminate].
        destruct r as [|d r]; [discriminate|]. cbn in P. destruct (ascii_dec "|" d); [subst d|discriminate].
        destruct r as [|e r]; [discriminate|]. cbn in P. destruct (ascii_dec " " e); [subst e|discriminate].
        exists r. reflexivity. }
      rewrite Ht, split_bar. destruct (IH t) as [A J].
      { rewrite Ht in Hn. cbn in Hn. lia. }
      pose proof (split_ne t) as NE. destruct (split_str t bar) as [|q qs] eqn:E; [contradiction|].
      split; [split; [reflexivity|exact A]|]. rewrite join2, J. reflexivity.
    + rewrite split_cons by exact P. cbn in Hn. destruct (IH r) as [A J]; [lia|].
      pose proof (split_ne r) as NE. destruct (split_str r bar) as [|q qs] eqn:E; [contradiction|].
      destruct qs as [|q2 qs].
      * cbn [join] in J. subst q. split; [|reflexivity]. cbn [alternatives contains] in *.
        rewrite P, A. reflexivity.
      * rewrite join2 in J. split.
        -- cbn [alternatives] in *. destruct A as [A1 A2]. split; [|exact A2].
           unfold inner_part in *. cbn [append contains]. rewrite A1, orb_false_r.
           destruct (String.prefix bar (String c (q ++ " "))) eqn:P2; [|reflexivity].
           rewrite <- J in P.
           assert (Q : String.prefix bar (String c q ++ " " ++ ("| " ++ join bar (q2 :: qs)))%string = true).
           { change (String c q ++ " " ++ ("| " ++ join bar (q2 :: qs)))%string
               with (String c (q ++ " " ++ ("| " ++ join bar (q2 :: qs))))%string.
             replace (q ++ " " ++ "| " ++ join bar (q2 :: qs))%string
               with ((q ++ " ") ++ ("| " ++ join bar (q2 :: qs)))%string by apply sapp_assoc.
             change (String c ((q ++ " ") ++ ("| " ++ join bar (q2 :: qs))))%string
               with (String c (q ++ " ") ++ ("| " ++ join bar (q2 :: qs)))%string.
             apply prefix_app. exact P2. }
           change (String.prefix bar (String c (q ++ bar ++ join bar (q2 :: qs))) = true) in Q. congruence.
        -- rewrite join2. change (String c q ++ bar ++ join bar (q2 :: qs))%string
             with (String c (q ++ bar ++ join bar (q2 :: qs))). rewrite J. reflexivity.
Qed.

(** *** C39 *)

(** The documented names of the bounded number types. *)
Definition bounds_name (p n : string) : Prop := In (p, n) schErrMsgFormatMap.

Lemma bounds_name_cases p : (exists n, bounds_name p n) \/ (forall n, ~ bounds_name p n).
Proof.
  unfold bounds_name. induction schErrMsgFormatMap as [|[k v] m IH]; [right; intros n []|].
  destruct (String.eqb_spec p k) as [->|NE]; [left; exists v; left; reflexivity|].
  destruct IH as [[n H]|H]; [left; exists n; right; exact H|].
  right. intros n [E|E]; [injection E as E _; congruence|exact (H n E)].
Qed.

Lemma lookup_in {A} k (m : list (string * A)) v : lookup_str k m = Some v -> In (k, v) m.
Proof.
  induction m as [|[k' v'] m IH]; cbn; [discriminate|].
  destruct (String.eqb_spec k k') as [->|NE]; [intros H; injection H as ->; auto|auto].
Qed.

Lemma lookup_none {A} k (m : list (string * A)) : lookup_str k m = None -> forall v, ~ In (k, v) m.
Proof.
  induction m as [|[k' v'] m IH]; cbn; intros H v; [intros []|].
  destruct (String.eqb_spec k k') as [->|NE]; [discriminate|].
  intros [E|E]; [injection E as E _; congruence|exact (IH H v E)].
Qed.

Lemma table_functional : forall p n n', bounds_name p n -> bounds_name p n' -> n = n'.
Proof.
  assert (H : forallb (fun a => forallb (fun b => implb (String.eqb (fst a) (fst b)) (String.eqb (snd a) (snd b)))
    schErrMsgFormatMap) schErrMsgFormatMap = true) by (vm_compute; reflexivity).
  intros p n n' H1 H2. rewrite forallb_forall in H. specialize (H _ H1). rewrite forallb_forall in H.
  specialize (H _ H2). cbn in H. rewrite String.eqb_refl in H. cbn in H. apply String.eqb_eq. exact H.
Qed.

(** The ranges of the sized number types. The smaller float is
    (2^24 - 1) * 2^104. *)
Definition range_texts (lo hi : string) : list string :=
  [("int & >=" ++ lo ++ " & <=" ++ hi)%string; (">=" ++ lo ++ " & <=" ++ hi ++ " & int")%string].
Inductive range_name : string -> string -> Prop :=
| rn_uint k p : In k [8; 16; 32; 64]%N -> In p (range_texts "0" (show_N (2 ^ k - 1))) ->
    range_name p ("uint" ++ show_N k)
| rn_int k p : In k [8; 16; 32; 64]%N ->
    In p (range_texts ("-" ++ show_N (2 ^ (k - 1))) (show_N (2 ^ (k - 1) - 1))) ->
    range_name p ("int" ++ show_N k)
| rn_float32 m : m = show_N ((2 ^ 24 - 1) * 2 ^ 104)%N -> range_name (">=-" ++ m ++ " & <=" ++ m) "float32"
| rn_float64 m : m = "1.797693134862315708145274237317043567981E+308" ->
    range_name (">=-" ++ m ++ " & <=" ++ m) "float64".

Lemma table_ranges p n : bounds_name p n <-> range_name p n.
Proof.
  split.
  - intros H. unfold bounds_name, schErrMsgFormatMap in H.
    assert (U : forall k p n, In k [8; 16; 32; 64]%N -> In p (range_texts "0" (show_N (2 ^ k - 1))) ->
      n = ("uint" ++ show_N k)%string -> range_name p n) by (intros; subst; eapply rn_uint; eassumption).
    assert (I : forall k p n, In k [8; 16; 32; 64]%N ->
      In p (range_texts ("-" ++ show_N (2 ^ (k - 1))) (show_N (2 ^ (k - 1) - 1))) ->
      n = ("int" ++ show_N k)%string -> range_name p n) by (intros; subst; eapply rn_int; eassumption).
    cbn [In] in H.
    repeat (destruct H as [H|H]; [injection H as <- <-;
      first [ apply (U 8%N); [vm_compute; tauto|vm_compute; tauto|reflexivity]
            | apply (U 16%N); [vm_compute; tauto|vm_compute; tauto|reflexivity]
            | apply (U 32%N); [vm_compute; tauto|vm_compute; tauto|reflexivity]
            | apply (U 64%N); [vm_compute; tauto|vm_compute; tauto|reflexivity]
            | apply (I 8%N); [vm_compute; tauto|vm_compute; tauto|reflexivity]
            | apply (I 16%N); [vm_compute; tauto|vm_compute; tauto|reflexivity]
            | apply (I 32%N); [vm_compute; tauto|vm_compute; tauto|reflexivity]
            | apply (I 64%N); [vm_compute; tauto|vm_compute; tauto|reflexivity]
            | exact (rn_float32 _ eq_refl) | exact (rn_float64 _ eq_refl)]|]).
    destruct H.
  - intros H. unfold bounds_name. destruct H as [k p Hk Hp|k p Hk Hp|m ->|m ->].
    + cbn [In] in Hk. destruct Hk as [<-|[<-|[<-|[<-|[]]]]]; cbn [In range_texts] in Hp;
        destruct Hp as [<-|[<-|[]]]; vm_compute; tauto.
    + cbn [In] in Hk. destruct Hk as [<-|[<-|[<-|[<-|[]]]]]; cbn [In range_texts] in Hp;
        destruct Hp as [<-|[<-|[]]]; vm_compute; tauto.
    + vm_compute. tauto.
    + vm_compute. tauto.
Qed.

(** [q] is what [p] is shown as. *)
Definition shown (p q : string) : Prop :=
  bounds_name p q \/ ((forall n, ~ bounds_name p n) /\ q = p).

Lemma shown_ranges p q : shown p q <-> range_name p q \/ ((forall n, ~ range_name p n) /\ q = p).
Proof.
  unfold shown. split; (intros [H|[H E]]; [left; apply table_ranges; exact H|right; split; [|exact E]]);
    intros n K; apply (H n), table_ranges, K.
Qed.

Lemma readable_shown p : shown p (readable_part p).
Proof.
  unfold readable_part, shown, bounds_name. destruct (lookup_str p schErrMsgFormatMap) as [n|] eqn:E.
  - left. apply lookup_in. exact E.
  - right. split; [apply lookup_none; exact E|reflexivity].
Qed.

Lemma shown_fun p q q' : shown p q -> shown p q' -> q = q'.
Proof.
  intros [H|[H ->]] [H'|[H' ->]]; auto.
  - exact (table_functional _ _ _ H H').
  - exfalso. exact (H' _ H).
  - exfalso. exact (H _ H').
Qed.

Lemma forall2_map {A B} (P : A -> B -> Prop) f l : (forall x, P x (f x)) -> Forall2 P l (map f l).
Proof. intros H. induction l; constructor; auto. Qed.

Lemma forall2_fun {A B} (P : A -> B -> Prop) l m m' :
  (forall x y y', P x y -> P x y' -> y = y') -> Forall2 P l m -> Forall2 P l m' -> m = m'.
Proof.
  intros F H. revert m'. induction H as [|x y l m H1 H2 IH]; intros m' H'; inversion H'; subst; [reflexivity|].
  f_equal; [eapply F; eauto|auto].
Qed.

Lemma human_spec value : exists ps qs,
  alternatives ps /\ join bar ps = value /\ Forall2 shown ps qs /\
  humanReadableCUEType value = join bar qs /\
  (forall ps', alternatives ps' -> join bar ps' = value -> ps' = ps).
Proof.
  destruct (alternatives_exist _ value (le_n _)) as [A J].
  exists (split_str value bar), (map readable_part (split_str value bar)).
  split; [exact A|]. split; [exact J|]. split; [apply forall2_map, readable_shown|]. split; [reflexivity|].
  intros ps' A' J'. rewrite <- J', (split_join ps' A'). reflexivity.
Qed.

Lemma table_names_ok : forall p n, bounds_name p n ->
  inner_part n /\ contains n bar = false /\ forall m, ~ bounds_name n m.
Proof.
  assert (H : forallb (fun a => negb (contains (snd a ++ " ") bar) && negb (contains (snd a) bar) &&
    match lookup_str (snd a) schErrMsgFormatMap with None => true | Some _ => false end)
    schErrMsgFormatMap = true) by (vm_compute; reflexivity).
  intros p n Hp. rewrite forallb_forall in H. specialize (H _ Hp). cbn [snd] in H.
  apply andb_prop in H as [H H3]. apply andb_prop in H as [H1 H2].
  apply negb_true_iff in H1, H2. split; [exact H1|]. split; [exact H2|].
  destruct (lookup_str n schErrMsgFormatMap) eqn:E; [discriminate|]. apply lookup_none. exact E.
Qed.

Lemma readable_idem p : readable_part (readable_part p) = readable_part p.
Proof.
  destruct (readable_shown p) as [H|[H E]].
  - destruct (table_names_ok _ _ H) as [_ [_ N]].
    apply (shown_fun (readable_part p)); [apply readable_shown|]. right. auto.
  - rewrite E at 1. reflexivity.
Qed.

Lemma alternatives_readable ps : alternatives ps -> alternatives (map readable_part ps).
Proof.
  induction ps as [|p ps IH]; intros H; [destruct H|]. destruct ps as [|q ps].
  - cbn in *. destruct (readable_shown p) as [K|[_ ->]]; [apply (table_names_ok _ _ K)|exact H].
  - destruct H as [H1 H2]. change (inner_part (readable_part p) /\ alternatives (map readable_part (q :: ps))).
    split; [|auto]. destruct (readable_shown p) as [K|[_ ->]]; [apply (table_names_ok _ _ K)|exact H1].
Qed.

Lemma human_idem value : humanReadableCUEType (humanReadableCUEType value) = humanReadableCUEType value.
Proof.
  unfold humanReadableCUEType. destruct (alternatives_exist _ value (le_n _)) as [A _].
  rewrite (split_join _ (alternatives_readable _ A)). f_equal.
  rewrite map_map. apply map_ext. apply readable_idem.
Qed.

(** *** Paths *)

(** [q] is the path of the offending field shown for the CUE path [p]. *)
Inductive field_path (p : list string) : list string -> Prop :=
| fp_schema a x y q : ~ In "schemas" a -> p = a ++ "schemas" :: x :: y :: q -> field_path p q
| fp_def x q : ~ In "schemas" p -> p = x :: q -> field_path p q.

Lemma trim_loop_spec rest : forall i parts,
  (~ In "schemas" rest /\ trim_loop i rest parts = slice_from parts 1) \/
  (exists a r, rest = a ++ "schemas" :: r /\ ~ In "schemas" a /\
     trim_loop i rest parts = slice_from parts (i + length a + 3)).
Proof.
  induction rest as [|s rest IH]; intros i parts; cbn [trim_loop].
  - left. split; [intros []|reflexivity].
  - destruct (String.eqb_spec s "schemas") as [->|NE].
    + right. exists [], rest. split; [reflexivity|]. split; [intros []|]. cbn [length]. f_equal. lia.
    + destruct (IH (S i) parts) as [[H1 H2]|[a [r [H1 [H2 H3]]]]].
      * left. split; [|exact H2]. intros [K|K]; [congruence|auto].
      * right. exists (s :: a), r. split; [rewrite H1; reflexivity|]. split.
        -- intros [K|K]; [congruence|auto].
        -- rewrite H3. cbn [length]. f_equal. lia.
Qed.

Lemma first_unique (a a' : list string) r r' x :
  ~ In x a -> ~ In x a' -> a ++ x :: r = a' ++ x :: r' -> a = a' /\ r = r'.
Proof.
  revert a'. induction a as [|y a IH]; intros [|z a'] H1 H2 E; cbn in E.
  - injection E as E. auto.
  - injection E as E1 E2. subst. exfalso. apply H2. left. reflexivity.
  - injection E as E1 E2. subst. exfalso. apply H1. left. reflexivity.
  - injection E as E1 E2. subst. destruct (IH a') as [-> ->]; auto; intros K; [apply H1|apply H2]; right; exact K.
Qed.

Lemma trim_spec p :
  (forall q, trimThemaPath p = Ok q <-> field_path p q) /\
  ((forall q, ~ field_path p q) <-> trimThemaPath p = Panic).
Proof.
  unfold trimThemaPath. destruct (trim_loop_spec p 0 p) as [[H1 H2]|[a [r [H1 [H2 H3]]]]].
  - rewrite H2. unfold slice_from. destruct p as [|x p]; cbn [length Nat.ltb Nat.leb skipn].
    + assert (N : forall q, ~ field_path [] q).
      { intros q K. inversion K as [a x y ? ? E|x ? ? E]; [destruct a|]; discriminate. }
      split; [|split; auto]. intros q. split; [discriminate|]. intros K. destruct (N q K).
    + assert (F : field_path (x :: p) p) by (apply (fp_def _ x); auto).
      split.
      * intros q. split; [intros K; injection K as <-; exact F|].
        intros K. inversion K as [a u y ? K1 E|u ? K1 E]; subst.
        -- exfalso. apply H1. rewrite E. apply in_or_app. right. left. reflexivity.
        -- injection E as _ ->. reflexivity.
      * split; [intros K; destruct (K p F)|discriminate].
  - rewrite H3. unfold slice_from. rewrite H1.
    destruct (Nat.ltb_spec (length (a ++ "schemas" :: r)) (0 + length a + 3)) as [L|L].
    + rewrite app_length in L. cbn in L.
      assert (N : forall q, ~ field_path (a ++ "schemas" :: r) q).
      { intros q K. inversion K as [a' x y ? K1 E|x ? K1 E].
        - destruct (first_unique _ _ _ _ _ H2 K1 E) as [-> ->]. cbn in L. lia.
        - apply K1. apply in_or_app. right. left. reflexivity. }
      split; [|split; auto]. intros q. split; [discriminate|]. intros K. destruct (N q K).
    + rewrite app_length in L. cbn in L. destruct r as [|x [|y r]]; cbn in L; try lia.
      assert (E : skipn (0 + length a + 3) (a ++ "schemas" :: x :: y :: r) = r).
      { cbn [Nat.add]. rewrite skipn_app, skipn_all2 by lia. cbn [app].
        replace (length a + 3 - length a)%nat with 3 by lia. reflexivity. }
      assert (F : field_path (a ++ "schemas" :: x :: y :: r) r) by (apply (fp_schema _ a x y); auto).
      rewrite E. split.
      * intros q. split; [intros K; injection K as <-; exact F|].
        intros K. inversion K as [a' x' y' ? K1 E'|x' ? K1 E'].
        -- destruct (first_unique _ _ _ _ _ H2 K1 E') as [-> E2]. injection E2 as _ _ ->. reflexivity.
        -- exfalso. apply K1. apply in_or_app. right. left. reflexivity.
      * split; [intros K; destruct (K r F)|discriminate].
Qed.

(** *** C37: which entry a CUE error yields *)
Definition data_leads (e : cue_err) : Prop :=
  exists p q r, ce_pos e = p :: q :: r /\ has_suffix (p_file p) ".cue" = false.

Definition sch_positions (e : cue_err) := filter (fun p => has_suffix (p_file p) ".cue") (ce_pos e).
Definition data_positions (e : cue_err) := filter (fun p => negb (has_suffix (p_file p) ".cue")) (ce_pos e).

Inductive entry_of (name : string) (v : version) (e : cue_err) : ventry -> Prop :=
| eo_missing q t :
    field_path (ce_path e) q -> ce_vals e = [AStr t] -> contains (ce_msg e) "incomplete" = true ->
    entry_of name v e (OneSided (sch_positions e) (data_positions e) MissingField (mkCoords name v q)
                         (humanReadableCUEType t))
| eo_excess q t :
    field_path (ce_path e) q -> ce_vals e = [AStr t] ->
    contains (ce_msg e) "incomplete" = false -> contains (ce_msg e) "not allowed" = true ->
    entry_of name v e (OneSided (sch_positions e) (data_positions e) ExcessField (mkCoords name v q)
                         (humanReadableCUEType t))
| eo_bounds q s d :
    field_path (ce_path e) q ->
    (data_leads e /\ ce_vals e = [AStr d; AStr s]) \/ (~ data_leads e /\ ce_vals e = [AStr s; AStr d]) ->
    entry_of name v e (TwoSided (sch_positions e) (data_positions e) OutOfBounds (mkCoords name v q)
                         (humanReadableCUEType s) d)
| eo_kinds q s d sk dk :
    field_path (ce_path e) q ->
    (data_leads e /\ ce_vals e = [AStr d; AStr s; AKind dk; AKind sk]) \/
    (~ data_leads e /\ ce_vals e = [AStr s; AStr d; AKind sk; AKind dk]) ->
    entry_of name v e (TwoSided (sch_positions e) (data_positions e)
                         (if N.eqb (N.land dk sk) 0 then KindConflict else OutOfBounds)
                         (mkCoords name v q) (humanReadableCUEType s) d).

Lemma data_first_spec e : data_first (ce_pos e) = true <-> data_leads e.
Proof.
  unfold data_first, data_leads. destruct (ce_pos e) as [|p [|q r]].
  - split; [discriminate|]. intros [? [? [? [K _]]]]; discriminate.
  - split; [discriminate|]. intros [? [? [? [K _]]]]; discriminate.
  - split; [intros H; apply negb_true_iff in H; exists p, q, r; auto|].
    intros [p' [q' [r' [K H]]]]. injection K as -> -> ->. rewrite H. reflexivity.
Qed.

Lemma data_first_false e : data_first (ce_pos e) = false <-> ~ data_leads e.
Proof.
  rewrite <- data_first_spec. destruct (data_first (ce_pos e)); split; congruence.
Qed.

Ltac no_entry :=
  split; [discriminate|];
  let K := fresh in intros K; inversion K; subst;
  repeat match goal with
         | H : (_ /\ _) \/ (_ /\ _) |- _ => destruct H as [[? H]|[? H]]
         end; congruence.

Lemma munge_one_spec name v e q : field_path (ce_path e) q ->
  exists o, munge_one name v e = Ok o /\ forall x, o = Some x <-> entry_of name v e x.
Proof.
  intros F. unfold munge_one. destruct (trim_spec (ce_path e)) as [T _]. apply T in F as F'. rewrite F'.
  cbn [bind splitTokens].
  assert (U : forall q', field_path (ce_path e) q' -> q' = q).
  { intros q' F2. apply T in F2. congruence. }
  eexists. split; [reflexivity|]. intros x.
  fold (sch_positions e) (data_positions e).
  destruct (ce_vals e) as [|a [|b [|c [|d [|? ?]]]]] eqn:Vl.
  - no_entry.
  - destruct a as [t| |]; [|no_entry|no_entry].
    destruct (contains (ce_msg e) "incomplete") eqn:C1.
    + split.
      * intros K. injection K as <-. apply eo_missing; auto.
      * intros K. inversion K as [q' t' F2 V2 C2|q' t' F2 V2 C2 C3|q' s d F2 [[_ V2]|[_ V2]]|q' s d sk dk F2 [[_ V2]|[_ V2]]];
          subst; try congruence. rewrite (U _ F2). congruence.
    + destruct (contains (ce_msg e) "not allowed") eqn:C2'; [|no_entry].
      split.
      * intros K. injection K as <-. apply eo_excess; auto.
      * intros K. inversion K as [q' t' F2 V2 C2|q' t' F2 V2 C2 C3|q' s d F2 [[_ V2]|[_ V2]]|q' s d sk dk F2 [[_ V2]|[_ V2]]];
          subst; try congruence. rewrite (U _ F2). congruence.
  - destruct (data_first (ce_pos e)) eqn:D.
    + apply data_first_spec in D as D'.
      destruct b as [s| |]; [|no_entry|no_entry]. destruct a as [t| |]; [|no_entry|no_entry].
      split.
      * intros K. injection K as <-. apply eo_bounds; auto.
      * intros K. inversion K as [q' t' F2 V2 C2|q' t' F2 V2 C2 C3|q' s' d F2 [[L V2]|[L V2]]|q' s' d sk dk F2 [[_ V2]|[_ V2]]];
          subst; try congruence. rewrite (U _ F2). congruence.
    + apply data_first_false in D as D'.
      destruct a as [s| |]; [|no_entry|no_entry]. destruct b as [t| |]; [|no_entry|no_entry].
      split.
      * intros K. injection K as <-. apply eo_bounds; auto.
      * intros K. inversion K as [q' t' F2 V2 C2|q' t' F2 V2 C2 C3|q' s' d F2 [[L V2]|[L V2]]|q' s' d sk dk F2 [[_ V2]|[_ V2]]];
          subst; try congruence. rewrite (U _ F2). congruence.
  - no_entry.
  - unfold is_any_of. destruct (data_first (ce_pos e)) eqn:D.
    + apply data_first_spec in D as D'.
      destruct b as [s| |]; [|no_entry|no_entry]. destruct a as [t| |]; [|no_entry|no_entry].
      destruct d as [|sk|]; [no_entry| |no_entry]. destruct c as [|dk|]; [no_entry| |no_entry].
      split.
      * intros K. injection K as <-.
        replace (if negb (N.land dk sk =? 0)%N then OutOfBounds else KindConflict)
          with (if (N.land dk sk =? 0)%N then KindConflict else OutOfBounds)
          by (destruct (_ =? _)%N; reflexivity).
        apply eo_kinds; auto.
      * intros K. inversion K as [q' t' F2 V2 C2|q' t' F2 V2 C2 C3|q' s' d F2 [[L V2]|[L V2]]|q' s' d sk' dk' F2 [[L V2]|[L V2]]];
          subst; try congruence. rewrite (U _ F2). rewrite Vl in V2. injection V2 as -> -> -> ->.
        destruct (_ =? _)%N; reflexivity.
    + apply data_first_false in D as D'.
      destruct a as [s| |]; [|no_entry|no_entry]. destruct b as [t| |]; [|no_entry|no_entry].
      destruct c as [|sk|]; [no_entry| |no_entry]. destruct d as [|dk|]; [no_entry| |no_entry].
      split.
      * intros K. injection K as <-.
        replace (if negb (N.land dk sk =? 0)%N then OutOfBounds else KindConflict)
          with (if (N.land dk sk =? 0)%N then KindConflict else OutOfBounds)
          by (destruct (_ =? _)%N; reflexivity).
        apply eo_kinds; auto.
      * intros K. inversion K as [q' t' F2 V2 C2|q' t' F2 V2 C2 C3|q' s' d F2 [[L V2]|[L V2]]|q' s' d sk' dk' F2 [[L V2]|[L V2]]];
          subst; try congruence. rewrite (U _ F2). rewrite Vl in V2. injection V2 as -> -> -> ->.
        destruct (_ =? _)%N; reflexivity.
  - no_entry.
Qed.

(** The entries of a list of CUE errors, in order. *)
Inductive entries_of (name : string) (v : version) : list cue_err -> list ventry -> Prop :=
| es_nil : entries_of name v [] []
| es_entry e x es xs : entry_of name v e x -> entries_of name v es xs -> entries_of name v (e :: es) (x :: xs)
| es_skip e es xs : (forall x, ~ entry_of name v e x) -> entries_of name v es xs ->
    entries_of name v (e :: es) xs.

Lemma munge_all_spec name v es :
  (forall e, In e es -> exists q, field_path (ce_path e) q) ->
  exists xs, munge_all name v es = Ok xs /\ entries_of name v es xs.
Proof.
  induction es as [|e es IH]; intros H; cbn [munge_all].
  - exists []. split; [reflexivity|constructor].
  - destruct (H e (or_introl eq_refl)) as [q F]. destruct (munge_one_spec name v e q F) as [o [E S]].
    rewrite E. cbn [bind]. destruct IH as [xs [E' S']]; [intros e' K; apply H; right; exact K|].
    rewrite E'. cbn [bind]. destruct o as [x|].
    + exists (x :: xs). split; [reflexivity|]. apply es_entry; [apply S; reflexivity|exact S'].
    + exists xs. split; [reflexivity|]. apply es_skip; [|exact S'].
      intros x K. apply S in K. discriminate.
Qed.

Lemma munge_all_panic name v es :
  (exists e, In e es /\ forall q, ~ field_path (ce_path e) q) -> munge_all name v es = Panic.
Proof.
  induction es as [|e es IH]; intros [e' [H N]]; [destruct H|]. cbn [munge_all].
  destruct (trim_spec (ce_path e)) as [T1 T2].
  destruct (trimThemaPath (ce_path e)) as [q|x| |] eqn:E.
  - destruct (munge_one_spec name v e q) as [o [-> _]]; [apply T1; reflexivity|]. cbn [bind].
    rewrite IH; [reflexivity|]. exists e'. split; [|exact N]. destruct H as [->|H]; [|exact H].
    exfalso. apply (N q). apply T1. reflexivity.
  - exfalso. clear - E. unfold trimThemaPath in E. destruct (trim_loop_spec (ce_path e) 0 (ce_path e)) as [[_ H]|[a [r [_ [_ H]]]]];
      rewrite H in E; unfold slice_from in E; destruct (Nat.ltb _ _); discriminate.
  - unfold munge_one. rewrite E. reflexivity.
  - exfalso. clear - E. unfold trimThemaPath in E. destruct (trim_loop_spec (ce_path e) 0 (ce_path e)) as [[_ H]|[a [r [_ [_ H]]]]];
      rewrite H in E; unfold slice_from in E; destruct (Nat.ltb _ _); discriminate.
Qed.

Lemma validate_reports (V : Type) (ev : evaluator V) (s : schema V) data es :
  ev_validate ev (ev_unify ev (sd_def (s_sd s)) data) = Some (VCue es) ->
  (forall e, In e es -> exists q, field_path (ce_path e) q) ->
  exists xs, entries_of (l_name (s_lin s)) (s_v s) es xs /\
    validate ev s data = Err (mkErr [ErrInvalidData] (failure_text xs)).
Proof.
  intros H P. destruct (munge_all_spec (l_name (s_lin s)) (s_v s) es P) as [xs [E S]].
  exists xs. split; [exact S|]. unfold validate. rewrite H. cbn [mungeValidateErr]. rewrite E. reflexivity.
Qed.

(** *** C38 *)
Lemma coords_in_entry x : contains (entry_text x) (coords_string (entry_coords x)) = true.
Proof. destruct x; cbn [entry_text entry_coords]; apply contains_self. Qed.

Lemma entry_in_failure x xs : In x xs -> forall p, contains (entry_text x) p = true ->
  contains (failure_text xs) p = true.
Proof.
  induction xs as [|y xs IH]; intros H p C; [destruct H|]. cbn [failure_text fold_right].
  destruct H as [->|H]; [apply contains_l; exact C|].
  apply contains_r, contains_r. apply IH; auto.
Qed.

Lemma entries_in name v es xs : entries_of name v es xs -> forall e x, In e es -> entry_of name v e x -> In x xs.
Proof.
  induction 1 as [|e0 x0 es xs E0 _ IH|e0 es xs N _ IH]; intros e x H E; [destruct H| |].
  - destruct H as [<-|H]; [|right; eapply IH; eauto]. left.
    destruct (trim_spec (ce_path e0)) as [T _].
    assert (exists q, field_path (ce_path e0) q) as [q F] by (inversion E0; eauto).
    destruct (munge_one_spec name v e0 q F) as [o [_ S]]. apply S in E, E0. congruence.
  - destruct H as [<-|H]; [exfalso; exact (N x E)|eapply IH; eauto].
Qed.

Lemma reported_paths (V : Type) (ev : evaluator V) (s : schema V) data es x :
  ev_validate ev (ev_unify ev (sd_def (s_sd s)) data) = Some (VCue es) ->
  validate ev s data = Err x ->
  forall e y, In e es -> entry_of (l_name (s_lin s)) (s_v s) e y ->
    contains (e_text x) (entry_text y) = true /\
    contains (e_text x) (coords_string (entry_coords y)) = true.
Proof.
  intros H Hx e y He Hy. unfold validate in Hx. rewrite H in Hx. cbn [mungeValidateErr] in Hx.
  assert (P : forall e, In e es -> exists q, field_path (ce_path e) q).
  { intros e' He'. destruct (trim_spec (ce_path e')) as [T1 T2].
    destruct (trimThemaPath (ce_path e')) as [q| | |] eqn:E.
    - exists q. apply T1. reflexivity.
    - exfalso. clear - E. unfold trimThemaPath in E. destruct (trim_loop_spec (ce_path e') 0 (ce_path e')) as [[_ H]|[a [r [_ [_ H]]]]];
        rewrite H in E; unfold slice_from in E; destruct (Nat.ltb _ _); discriminate.
    - rewrite munge_all_panic in Hx; [discriminate|]. exists e'. split; [exact He'|]. apply T2. reflexivity.
    - exfalso. clear - E. unfold trimThemaPath in E. destruct (trim_loop_spec (ce_path e') 0 (ce_path e')) as [[_ H]|[a [r [_ [_ H]]]]];
        rewrite H in E; unfold slice_from in E; destruct (Nat.ltb _ _); discriminate. }
  destruct (munge_all_spec (l_name (s_lin s)) (s_v s) es P) as [xs [E S]]. rewrite E in Hx. cbn in Hx.
  injection Hx as <-. cbn [e_text].
  pose proof (entries_in _ _ _ _ S e y He Hy) as I.
  split; apply (entry_in_failure y xs I).
  - rewrite <- (sapp_nil (entry_text y)) at 1. apply contains_self.
  - apply coords_in_entry.
Qed.

Lemma munge_outcome name v es :
  mungeValidateErr name v (VCue es) = Panic <-> exists e, In e es /\ forall q, ~ field_path (ce_path e) q.
Proof.
  split.
  - intros H. cbn in H. destruct (munge_all name v es) eqn:E; try discriminate. clear H.
    revert E. induction es as [|e es IH]; cbn [munge_all]; [discriminate|]. intros E.
    destruct (trim_spec (ce_path e)) as [T1 T2].
    destruct (munge_one name v e) as [o|x| |] eqn:E1; try discriminate; cbn [bind] in E.
    + destruct (munge_all name v es); try discriminate. destruct (IH eq_refl) as [e' [I N]].
      exists e'. split; [right; exact I|exact N].
    + exists e. split; [left; reflexivity|]. apply T2. unfold munge_one in E1.
      destruct (trimThemaPath (ce_path e)); cbn in E1; try discriminate; reflexivity.
  - intros H. cbn. rewrite (munge_all_panic _ _ _ H). reflexivity.
Qed.

(** The values quoted in an entry. *)
Definition quoted (x : ventry) : list string :=
  match x with OneSided _ _ _ _ val => [val] | TwoSided _ _ _ _ sv dv => [sv; dv] end.

Lemma contains_mid a p t : contains (a ++ p ++ t) p = true.
Proof. apply contains_r, contains_self. Qed.

Lemma entry_quotes name v e x : entry_of name v e x ->
  forall w, In w (quoted x) -> contains (entry_text x) ("`" ++ w ++ "`") = true.
Proof.
  assert (B : forall a w t, contains (a ++ "`" ++ w ++ "`" ++ t) ("`" ++ w ++ "`") = true).
  { intros a w t. replace ("`" ++ w ++ "`" ++ t)%string with (("`" ++ w ++ "`") ++ t)%string
      by (rewrite !sapp_assoc; reflexivity). apply contains_mid. }
  destruct 1 as [q t F Hv C|q t F Hv C1 C2|q s d F H|q s d sk dk F H]; cbn [quoted entry_text]; intros w Hw.
  - destruct Hw as [<-|[]]. do 4 apply contains_r. apply (B "schema specifies that field exists with type ").
  - destruct Hw as [<-|[]]. do 7 apply contains_r. apply (B "but field exists in data with value ").
  - destruct Hw as [<-|[<-|[]]].
    + do 4 apply contains_r. apply (B "schema expected ").
    + do 10 apply contains_r. apply (B "but data contained ").
  - destruct Hw as [<-|[<-|[]]].
    + do 4 apply contains_r. apply (B "schema expected ").
    + do 10 apply contains_r. apply (B "but data contained ").
Qed.

Lemma contains_trans s p q : contains s p = true -> contains p q = true -> contains s q = true.
Proof.
  induction s as [|a s IH]; intros H1 H2.
  - cbn in H1. rewrite orb_false_r in H1. destruct p; [exact H2|discriminate].
  - cbn [contains] in H1. apply orb_prop in H1 as [H1|H1].
    + assert (exists t, String a s = (p ++ t)%string) as [t ->].
      { clear - H1. revert H1. generalize (String a s). induction p as [|x p IHp]; intros u H; [exists u; reflexivity|].
        destruct u as [|y u]; [discriminate|]. cbn in H. destruct (ascii_dec x y); [subst|discriminate].
        destruct (IHp u H) as [t ->]. exists t. reflexivity. }
      apply contains_l. exact H2.
    + cbn [contains]. rewrite (IH H1 H2). apply orb_true_r.
Qed.

Lemma join_concat sep l : String.concat sep l = join sep l.
Proof. reflexivity. Qed.

Lemma reported (V : Type) (ev : evaluator V) (s : schema V) data es x :
  ev_validate ev (ev_unify ev (sd_def (s_sd s)) data) = Some (VCue es) ->
  validate ev s data = Err x ->
  forall e y, In e es -> entry_of (l_name (s_lin s)) (s_v s) e y ->
    contains (e_text x) (entry_text y) = true /\
    (exists q, field_path (ce_path e) q /\
       contains (entry_text y)
         ("<" ++ l_name (s_lin s) ++ "@v" ++ vstring (s_v s) ++ ">." ++ String.concat "." q) = true) /\
    forall w, In w (quoted y) -> contains (entry_text y) ("`" ++ w ++ "`") = true.
Proof.
  intros H Hx e y He Hy. destruct (reported_paths V ev s data es x H Hx e y He Hy) as [H1 _].
  split; [exact H1|]. split; [|exact (entry_quotes _ _ _ _ Hy)].
  exists (c_path (entry_coords y)). split; [inversion Hy; assumption|].
  pose proof (coords_in_entry y) as K. unfold coords_string in K.
  assert (E1 : c_lin (entry_coords y) = l_name (s_lin s)) by (inversion Hy; reflexivity).
  assert (E2 : c_v (entry_coords y) = s_v s) by (inversion Hy; reflexivity).
  rewrite E1, E2 in K. rewrite join_concat. exact K.
Qed.

(** Validate and the outcome of composing the message. *)
Lemma validate_cue (V : Type) (ev : evaluator V) (s : schema V) data es :
  ev_validate ev (ev_unify ev (sd_def (s_sd s)) data) = Some (VCue es) ->
  (validate ev s data = Panic /\ exists e, In e es /\ forall q, ~ field_path (ce_path e) q) \/
  ((forall e, In e es -> exists q, field_path (ce_path e) q) /\
   exists xs, entries_of (l_name (s_lin s)) (s_v s) es xs /\
     validate ev s data = Err (mkErr [ErrInvalidData] (failure_text xs))).
Proof.
  intros H.
  assert (D : (exists e, In e es /\ forall q, ~ field_path (ce_path e) q) \/
              (forall e, In e es -> exists q, field_path (ce_path e) q)).
  { clear H. induction es as [|e es IH]; [right; intros e []|].
    destruct IH as [[e' [I N]]|A]; [left; exists e'; split; [right; exact I|exact N]|].
    destruct (trim_spec (ce_path e)) as [T1 T2].
    destruct (trimThemaPath (ce_path e)) as [q| | |] eqn:E.
    - right. intros e' [<-|I]; [exists q; apply T1; reflexivity|auto].
    - exfalso. unfold trimThemaPath in E. destruct (trim_loop_spec (ce_path e) 0 (ce_path e)) as [[_ H]|[a [r [_ [_ H]]]]];
        rewrite H in E; unfold slice_from in E; destruct (Nat.ltb _ _); discriminate.
    - left. exists e. split; [left; reflexivity|]. apply T2. reflexivity.
    - exfalso. unfold trimThemaPath in E. destruct (trim_loop_spec (ce_path e) 0 (ce_path e)) as [[_ H]|[a [r [_ [_ H]]]]];
        rewrite H in E; unfold slice_from in E; destruct (Nat.ltb _ _); discriminate. }
  destruct D as [D|D].
  - left. split; [|exact D]. unfold validate. rewrite H. cbn [mungeValidateErr].
    rewrite (munge_all_panic _ _ _ D). reflexivity.
  - right. split; [exact D|]. exact (validate_reports V ev s data es H D).
Qed.

(** *** C38 witnesses *)
Definition lost_err : cue_err := mkCueErr [] ["#Lineage"; "f"] "reference not found" [].
Definition root_err : cue_err := mkCueErr [] [] "conflicting values" [AStr "int"; AStr "true"].

Lemma violation_lost : exists es, es <> [] /\
  mungeValidateErr "x" (0%N, 0%N) (VCue es) = Ok (MFailure []) /\
  munged_err (MFailure []) = mkErr [ErrInvalidData] "".
Proof. exists [lost_err]. split; [discriminate|]. split; reflexivity. Qed.

Lemma message_panics : exists es, mungeValidateErr "x" (0%N, 0%N) (VCue es) = Panic.
Proof. exists [root_err]. reflexivity. Qed.

(** Errors that are not CUE errors are passed on. *)
Lemma validate_foreign (V : Type) (ev : evaluator V) (s : schema V) data e :
  ev_validate ev (ev_unify ev (sd_def (s_sd s)) data) = Some (VOther e) -> validate ev s data = Err e.
Proof. intros H. unfold validate. rewrite H. reflexivity. Qed.
