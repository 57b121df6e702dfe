(** What the regular expressions of GoComment.v match, and what becomes of
    comments. *)
From Verif Require Import Prelude Strings Version Util GenName GenNameProofs GenCommentProofs Gocode CliProofs GoComment.
Local Open Scope string_scope.
Local Open Scope list_scope.

(** *** Strings *)

Lemma app_nil_str s : (s ++ "")%string = s.
Proof. induction s as [|c r IH]; [reflexivity|]. cbn. rewrite IH. reflexivity. Qed.
Lemma app_assoc_str a b c : ((a ++ b) ++ c)%string = (a ++ b ++ c)%string.
Proof. induction a as [|x a IH]; [reflexivity|]. cbn. rewrite IH. reflexivity. Qed.

(** *** Matching *)

Lemma greedy_none p next s :
  (forall a b, s = (a ++ b)%string -> all p a = true -> next b = None) -> greedy p next s = None.
Proof.
  induction s as [|c r IH]; intros H.
  - cbn. rewrite (H "" "" eq_refl eq_refl). reflexivity.
  - cbn [greedy]. rewrite (H "" (String c r) eq_refl eq_refl). destruct (p c) eqn:P; [|reflexivity].
    rewrite IH; [reflexivity|]. intros a b -> A. apply (H (String c a) b); [reflexivity|]. cbn. rewrite P. exact A.
Qed.

Lemma greedy_some p next a : forall b l z,
  all p a = true -> next b = Some (l, z) ->
  (forall a' b', b = (a' ++ b')%string -> a' <> "" -> all p a' = true -> next b' = None) ->
  greedy p next (a ++ b) = Some (a :: l, z).
Proof.
  induction a as [|c r IH]; intros b l z A N L.
  - cbn [append]. destruct b as [|c b]; cbn [greedy]; rewrite N; [reflexivity|].
    destruct (p c) eqn:P; [|reflexivity]. rewrite greedy_none; [reflexivity|].
    intros a' b' -> A'. apply (L (String c a') b'); [reflexivity|discriminate|]. cbn. rewrite P. exact A'.
  - cbn in A. apply andb_true_iff in A. destruct A as [P A]. cbn [append greedy]. rewrite P.
    rewrite (IH b l z A N L). reflexivity.
Qed.

Lemma lazily_some p next a : forall b l z,
  all p a = true -> next b = Some (l, z) ->
  (forall a' b', a = (a' ++ b')%string -> b' <> "" -> next (b' ++ b)%string = None) ->
  lazily p next (a ++ b) = Some (a :: l, z).
Proof.
  induction a as [|c r IH]; intros b l z A N L.
  - cbn [append]. destruct b as [|c b]; cbn [lazily]; rewrite N; reflexivity.
  - cbn in A. apply andb_true_iff in A. destruct A as [P A]. cbn [append lazily].
    change (String c (r ++ b)) with (String c r ++ b)%string.
    rewrite (L "" (String c r) eq_refl) by discriminate. rewrite P, (IH b l z A N); [reflexivity|].
    intros a' b' -> B. apply (L (String c a') b'); [reflexivity|exact B].
Qed.

Fixpoint chars (w : string) : list string :=
  match w with
  | EmptyString => []
  | String c r => String c "" :: chars r
  end.
Definition prepend (l : list string) (m : option matched) : option matched :=
  match m with
  | Some (l', r) => Some (l ++ l', r)
  | None => None
  end.

Lemma literal_app w its s : match_here (literal w ++ its) (w ++ s) = prepend (chars w) (match_here its s).
Proof.
  induction w as [|c r IH].
  - cbn. destruct (match_here its s) as [[? ?]|]; reflexivity.
  - cbn. unfold is_char. rewrite Ascii.eqb_refl, IH. destruct (match_here its s) as [[? ?]|]; reflexivity.
Qed.

Lemma literal_none w its s : (forall t, s <> (w ++ t)%string) -> match_here (literal w ++ its) s = None.
Proof.
  revert s. induction w as [|c r IH]; intros s N.
  - exfalso. apply (N s). reflexivity.
  - cbn. destruct s as [|d s]; [reflexivity|]. unfold is_char. destruct (Ascii.eqb_spec c d) as [->|]; [|reflexivity].
    rewrite IH; [reflexivity|]. intros t ->. apply (N t). reflexivity.
Qed.

Lemma prefix_dec (w s : string) : (exists t, s = (w ++ t)%string) \/ (forall t, s <> (w ++ t)%string).
Proof.
  revert s. induction w as [|c r IH]; intros s; [left; exists s; reflexivity|].
  destruct s as [|d s]; [right; discriminate|]. destruct (Ascii.eqb_spec c d) as [->|N].
  - destruct (IH s) as [[t ->]|N]; [left; exists t; reflexivity|]. right. intros t E. injection E as E. exact (N t E).
  - right. intros t E. injection E as E _. congruence.
Qed.

(** A match is part of the text. *)
Lemma find_part its s a l z : find_match its s = Some (a, l, z) -> exists t, s = (a ++ t)%string /\ match_here its t = Some (l, z).
Proof.
  revert a. induction s as [|c r IH]; intros a; cbn [find_match].
  - destruct (match_here its "") as [[l' r']|] eqn:E; [|discriminate]. intros X. injection X as <- <- <-. exists "". auto.
  - destruct (match_here its (String c r)) as [[l' r']|] eqn:E.
    + intros X. injection X as <- <- <-. exists (String c r). auto.
    + destruct (find_match its r) as [[[a' l'] z']|]; [|discriminate]. intros X. injection X as <- -> ->.
      destruct (IH a' eq_refl) as (t & -> & M). exists t. auto.
Qed.
Lemma find_none its s : (forall a t, s = (a ++ t)%string -> match_here its t = None) -> find_match its s = None.
Proof.
  intros H. destruct (find_match its s) as [[[a l] z]|] eqn:E; [|reflexivity].
  destruct (find_part _ _ _ _ _ E) as (t & -> & M). rewrite (H a t eq_refl) in M. discriminate.
Qed.
Lemma find_here its s l z : match_here its s = Some (l, z) -> find_match its s = Some ("", l, z).
Proof. intros H. destruct s; cbn [find_match]; rewrite H; reflexivity. Qed.

(** *** TODO *)

Lemma all_dot s : all dot s = no_nl s.
Proof. reflexivity. Qed.

Lemma rest_of_line s : no_nl s = true -> greedy dot (match_here []) s = Some ([s], "").
Proof.
  intros H. rewrite <- (app_nil_str s) at 1. apply greedy_some; [exact H|reflexivity|].
  intros a b E N. destruct a; [congruence|discriminate].
Qed.

(** The text has [ TODO] in it. *)
Definition has_todo (l : string) : Prop := exists x y, l = (x ++ " TODO" ++ y)%string.

Definition todo_tail : list item := literal " TODO" ++ [Greedy dot].
Lemma todo_tail_none s : (forall t, s <> (" TODO" ++ t)%string) -> match_here todo_tail s = None.
Proof. apply literal_none. Qed.

Lemma no_todo l : ~ has_todo l -> find_match todo_regex ("// " ++ l) = None.
Proof.
  intros H. apply find_none. intros a t E. destruct (prefix_dec "// " t) as [[t' ->]|N]; [|apply literal_none; exact N].
  unfold todo_regex. rewrite literal_app. cbn [match_here app]. rewrite greedy_none; [reflexivity|].
  intros x y E' _. fold todo_tail. apply todo_tail_none. intros z ->. apply H. subst t'.
  destruct a as [|a0 a].
  - exists x, z. injection E as ->. reflexivity.
  - destruct a as [|a1 a]; [discriminate|]. destruct a as [|a2 a]; [discriminate|].
    cbn in E. injection E as _ _ _ ->. exists (a ++ "// " ++ x)%string, z. rewrite !app_assoc_str. reflexivity.
Qed.

Lemma last_todo x y : no_nl (x ++ " TODO" ++ y) = true -> ~ has_todo y ->
  find_match todo_regex ("// " ++ x ++ " TODO" ++ y)
  = Some ("", ["/"; "/"; " "; x; " "; "T"; "O"; "D"; "O"; y], "").
Proof.
  intros L H. apply find_here. unfold todo_regex. rewrite literal_app. cbn [match_here app].
  unfold no_nl in L. rewrite !all_app in L. apply andb_true_iff in L. destruct L as [LX LY]. cbn in LY.
  rewrite (greedy_some dot _ x (" TODO" ++ y) [" "; "T"; "O"; "D"; "O"; y] "" LX); [reflexivity| |].
  - fold todo_tail. unfold todo_tail. rewrite literal_app. cbn [match_here]. rewrite rest_of_line by exact LY. reflexivity.
  - intros a' b' E N _. fold todo_tail. apply todo_tail_none. intros z ->.
    repeat (destruct a' as [|? a']; [solve [congruence|discriminate]|cbn in E; injection E as <- E]).
    apply H. exists a', z. exact E.
Qed.

Lemma todo_kept n l : ~ has_todo l -> replace_todo n ("// " ++ l) = ("// " ++ l)%string.
Proof. intros H. destruct n; [reflexivity|]. cbn [replace_todo]. rewrite (no_todo l H). reflexivity. Qed.

Lemma find_empty : find_match todo_regex "" = None.
Proof. reflexivity. Qed.

Lemma todo_cut n x y : no_nl (x ++ " TODO" ++ y) = true -> ~ has_todo y ->
  replace_todo (S n) ("// " ++ x ++ " TODO" ++ y) = ("// TODO" ++ y)%string.
Proof.
  intros L H. cbn [replace_todo]. rewrite (last_todo x y L H). cbn [append].
  assert (E : replace_todo n "" = "") by (destruct n; reflexivity). rewrite E, app_nil_str. reflexivity.
Qed.

(** *** Names *)

Definition no_space (s : string) : bool := all (fun c => negb (Ascii.eqb c " ")) s.

Lemma space_none its s : (forall r, s <> String " " r) -> match_here (One (is_char " ") :: its) s = None.
Proof.
  intros N. cbn [match_here]. destruct s as [|c r]; [reflexivity|]. unfold is_char.
  destruct (Ascii.eqb_spec " " c) as [<-|]; [|reflexivity]. exfalso. exact (N r eq_refl).
Qed.
Lemma space_some its r : match_here (One (is_char " ") :: its) (String " " r) = before_text " " (match_here its r).
Proof. reflexivity. Qed.

(** [.*?] up to the next space. *)
Lemma word its w r l z : no_space w = true -> no_nl w = true -> match_here its r = Some (l, z) ->
  lazily dot (match_here (One (is_char " ") :: its)) (w ++ String " " r) = Some (w :: " " :: l, z).
Proof.
  intros S1 L M. apply (lazily_some dot _ w (String " " r) (" " :: l) z); [exact L|rewrite space_some, M; reflexivity|].
  intros a b -> N. destruct b as [|c b]; [congruence|]. apply space_none. intros r' E. injection E as -> _.
  unfold no_space in S1. rewrite all_app in S1. cbn in S1. rewrite andb_false_r in S1. discriminate.
Qed.

(** The names of types and fields. *)
Definition go_name (n : string) : Prop :=
  (exists c r, n = String c r /\ a_to_z c = true) /\ no_space n = true /\ no_nl n = true.

Lemma name_match n w r : go_name n -> no_space w = true -> no_nl w = true -> no_nl r = true ->
  exists a b x y, n = (a ++ b)%string /\ w = (x ++ y)%string /\
    find_match name_regex ("// " ++ n ++ " " ++ w ++ " " ++ r)
    = Some ("", ["/"; "/"; " "; a; b; " "; x; y; " "; r], "").
Proof.
  intros ((c & n' & -> & C) & NS & NL) WS WL RL.
  cbn in NS, NL. apply andb_true_iff in NS, NL. destruct NS as [_ NS], NL as [_ NL].
  assert (END : match_here [Greedy dot] r = Some ([r], "")) by (apply rest_of_line, RL).
  assert (W : exists x y, w = (x ++ y)%string /\
    match_here [Maybe a_to_z; Lazy dot; One (is_char " "); Greedy dot] (w ++ String " " r) = Some ([x; y; " "; r], "")).
  { assert (G : forall v, no_space v = true -> no_nl v = true ->
      match_here [Lazy dot; One (is_char " "); Greedy dot] (v ++ String " " r) = Some ([v; " "; r], "")).
    { intros v V1 V2. exact (word [Greedy dot] v r [r] "" V1 V2 END). }
    remember [Lazy dot; One (is_char " "); Greedy dot] as its eqn:ITS.
    destruct w as [|d w'].
    - exists "", "". split; [reflexivity|]. cbn [match_here append]. pose proof (G "" WS WL) as Q. cbn [append] in Q.
      change (a_to_z " ") with false. rewrite Q. reflexivity.
    - destruct (a_to_z d) eqn:D.
      + exists (String d ""), w'. split; [reflexivity|]. cbn [match_here append]. rewrite D.
        cbn in WS, WL. apply andb_true_iff in WS, WL. rewrite G by tauto. reflexivity.
      + exists "", (String d w'). split; [reflexivity|]. cbn [match_here append]. rewrite D.
        pose proof (G (String d w') WS WL) as Q. cbn [append] in Q. rewrite Q. reflexivity. }
  destruct W as (x & y & -> & W). exists (String c ""), n', x, y. split; [reflexivity|]. split; [reflexivity|].
  apply find_here. unfold name_regex. rewrite literal_app. cbn [append].
  change (match_here [One a_to_z; Lazy dot; One (is_char " "); Maybe a_to_z; Lazy dot; One (is_char " "); Greedy dot] (String c (n' ++ String " " ((x ++ y) ++ String " " r))))
    with (if a_to_z c then before_text (String c "") (lazily dot (match_here (One (is_char " ") :: [Maybe a_to_z; Lazy dot; One (is_char " "); Greedy dot])) (n' ++ String " " ((x ++ y) ++ String " " r))) else None).
  rewrite C. rewrite (word _ n' _ _ _ NS NL W). reflexivity.
Qed.

(** Spaces in a text, and those that a match needs. *)
Fixpoint spaces (s : string) : nat :=
  match s with
  | EmptyString => 0
  | String c r => (if Ascii.eqb " " c then 1 else 0) + spaces r
  end.
Definition needs (its : list item) : nat :=
  list_sum (map (fun i => match i with One p => if p " "%char && negb (p "A"%char) then 1 else 0 | _ => 0 end) its).
Definition chars_only (its : list item) : Prop :=
  forall p, In (One p) its -> p " "%char = true -> p "A"%char = false -> forall c, p c = true -> c = " "%char.

Lemma spaces_app a b : spaces (a ++ b) = spaces a + spaces b.
Proof. induction a as [|c r IH]; [reflexivity|]. cbn. rewrite IH. lia. Qed.

Lemma needs_spaces its : chars_only its -> forall s m, match_here its s = Some m -> needs its <= spaces s.
Proof.
  induction its as [|i its IH]; intros C s m; [cbn; lia|].
  assert (C' : chars_only its) by (intros p I; apply C; right; exact I).
  specialize (IH C').
  assert (NEXT : forall x s m, before_text x (match_here its s) = Some m -> needs its <= spaces s).
  { intros x s' m' E. destruct (match_here its s') as [m0|] eqn:M; [|discriminate]. exact (IH _ _ M). }
  destruct i as [p|p|p|p]; cbn [match_here].
  - destruct s as [|c r]; [discriminate|]. destruct (p c) eqn:P; [|discriminate]. intros E. apply NEXT in E.
    change (needs (One p :: its)) with ((if p " "%char && negb (p "A"%char) then 1 else 0) + needs its).
    cbn [spaces]. destruct (p " "%char) eqn:P1; cbn [andb]; [|lia]. destruct (p "A"%char) eqn:P2; cbn [negb]; [lia|].
    rewrite (C p (or_introl eq_refl) P1 P2 c P). cbn. lia.
  - change (needs (Maybe p :: its)) with (needs its). intros E. unfold either in E.
    destruct s as [|c r].
    + exact (NEXT _ _ _ E).
    + destruct (p c).
      * destruct (before_text (String c "") (match_here its r)) as [m0|] eqn:M; [|exact (NEXT _ _ _ E)].
        apply NEXT in M. cbn [spaces]. lia.
      * exact (NEXT _ _ _ E).
  - change (needs (Greedy p :: its)) with (needs its).
    assert (G : forall s m, greedy p (match_here its) s = Some m -> needs its <= spaces s).
    { induction s0 as [|c r IHs]; intros m0 E; cbn [greedy] in E; [exact (NEXT _ _ _ E)|].
      unfold either in E. destruct (if p c then extend c (greedy p (match_here its) r) else None) as [m1|] eqn:M; [|exact (NEXT _ _ _ E)].
      destruct (p c); [|discriminate]. destruct (greedy p (match_here its) r) as [m2|] eqn:M2; [|discriminate].
      specialize (IHs m2 eq_refl). cbn [spaces]. lia. }
    exact (G s m).
  - change (needs (Lazy p :: its)) with (needs its).
    assert (G : forall s m, lazily p (match_here its) s = Some m -> needs its <= spaces s).
    { induction s0 as [|c r IHs]; intros m0 E; cbn [lazily] in E; [exact (NEXT _ _ _ E)|].
      unfold either in E. destruct (before_text "" (match_here its (String c r))) as [m1|] eqn:M; [exact (NEXT _ _ _ M)|].
      destruct (p c); [|discriminate]. destruct (lazily p (match_here its) r) as [m2|] eqn:M2; [|discriminate].
      specialize (IHs m2 eq_refl). cbn [spaces]. lia. }
    exact (G s m).
Qed.

Lemma no_space_spaces s : no_space s = true -> spaces s = 0.
Proof.
  induction s as [|c r IH]; [reflexivity|]. unfold no_space in *. cbn [all spaces]. intros H. apply andb_true_iff in H. destruct H as [H1 H2].
  rewrite (IH H2). destruct (Ascii.eqb_spec " " c) as [<-|]; [discriminate|reflexivity].
Qed.

Lemma name_few s : spaces s < 3 -> find_match name_regex s = None.
Proof.
  intros L. apply find_none. intros a t ->. rewrite spaces_app in L.
  destruct (match_here name_regex t) as [m|] eqn:M; [|reflexivity]. exfalso.
  assert (C : chars_only name_regex).
  { intros p I P1 P2 c P. unfold name_regex in I. cbn in I. repeat (destruct I as [I|I]; [first [discriminate|injection I as <-]|]); try destruct I;
      try discriminate; unfold is_char in P; apply Ascii.eqb_eq in P; congruence. }
  pose proof (needs_spaces name_regex C t m M) as Q. change (needs name_regex) with 3 in Q. lia.
Qed.

(** *** The comments of a type or field *)

Section Comments.
Variable u : unicode.
Variable equal_fold : string -> string -> bool.

(** The first character. *)
Definition lower_first (w : string) : bool := match runes w with r :: _ => is_lower u r | [] => false end.

Lemma remove_cases n w r rest : go_name n -> no_space w = true -> no_nl w = true -> no_nl r = true ->
  removeGoFieldComment u equal_fold (("// " ++ n ++ " " ++ w ++ " " ++ r)%string :: rest)
  = if equal_fold w n then Ok (("// " ++ w ++ " " ++ r)%string :: rest)
    else match runes w with
         | [] => Panic
         | c :: _ => if negb (is_lower u c) then Ok (("// " ++ w ++ " " ++ r)%string :: rest)
                     else Ok (("// " ++ n ++ " " ++ w ++ " " ++ r)%string :: rest)
         end.
Proof.
  intros N S1 L R. destruct (name_match n w r N S1 L R) as (a & b & x & y & -> & -> & M).
  unfold removeGoFieldComment. rewrite M. reflexivity.
Qed.

Lemma runes_ne w : w <> "" -> runes w <> [].
Proof.
  destruct w as [|c r]; [congruence|]. intros _. unfold runes. cbn [runes_from]. destruct (decode_rune c r). discriminate.
Qed.

Lemma remove_short n l rest : go_name n -> no_space l = true ->
  removeGoFieldComment u equal_fold (("// " ++ n ++ " " ++ l)%string :: rest) = Ok (("// " ++ n ++ " " ++ l)%string :: rest).
Proof.
  intros (_ & NS & _) LS. unfold removeGoFieldComment. rewrite name_few; [reflexivity|].
  rewrite !spaces_app, (no_space_spaces n NS), (no_space_spaces l LS). cbn. lia.
Qed.

(** The lines of the comment that is generated for a description. *)
Definition comment_of (n text : string) : list string := split_str (stringToGoCommentWithPrefix text n) newline.

Lemma lines_ne_aux k : forall s, String.length s <= k -> lines_of s <> [].
Proof.
  induction k as [|k IH]; intros s L; [destruct s; [discriminate|cbn in L; lia]|].
  destruct s as [|c r]; [discriminate|]. cbn [lines_of]. destruct (Ascii.eqb c nl); [discriminate|].
  destruct (Ascii.eqb c cr).
  - destruct r as [|d r']; [discriminate|]. destruct (Ascii.eqb d nl); discriminate.
  - destruct (lines_of r); discriminate.
Qed.
Lemma lines_ne s : lines_of s <> [].
Proof. exact (lines_ne_aux _ s (le_n _)). Qed.

Lemma drop_empty_first l ls : exists ls', drop_empty (l :: ls) = l :: ls' /\ (forall x, In x ls' -> In x ls).
Proof.
  unfold drop_empty. destruct (Nat.ltb 1 (length (l :: ls)) && String.eqb (last (l :: ls) "x") "") eqn:E.
  - destruct ls as [|a r]; [discriminate|]. exists (removelast (a :: r)). split; [reflexivity|].
    intros x I. rewrite (app_removelast_last (l := a :: r) "x") by discriminate. apply in_or_app. left. exact I.
  - exists ls. auto.
Qed.

Lemma comment_of_lines text l ls : blank text = false -> lines_of text = l :: ls ->
  exists ls', Forall (fun x => no_nl x = true) (l :: ls') /\
    forall n, no_nl n = true -> comment_of n text = comment_lines n (l :: ls').
Proof.
  intros B E. destruct (drop_empty_first l ls) as (ls' & D & I). exists ls'.
  pose proof (lines_no_nl (String.length text) text (le_n _)) as F. rewrite E in F.
  assert (F' : Forall (fun x => no_nl x = true) (l :: ls')).
  { rewrite Forall_forall in *. intros x [<-|J]; apply F; [left; reflexivity|right; apply I, J]. }
  split; [exact F'|]. intros n NL. unfold comment_of. rewrite (comment_text text n NL B), E, D.
  apply split_concat; [discriminate|]. exact (comment_no_nl n (l :: ls') NL F').
Qed.

Lemma go_name_ne n : go_name n -> String.eqb n "" = false.
Proof. intros ((c & r & -> & _) & _). reflexivity. Qed.

Lemma name_line n x : String.eqb n "" = false ->
  ((if String.eqb n "" then "//" else ("// " ++ n)) ++ " " ++ x)%string = ("// " ++ n ++ " " ++ x)%string.
Proof. intros ->. apply app_assoc_str. Qed.

Theorem comment_dropped n text w r ls : go_name n -> blank text = false ->
  lines_of text = (w ++ " " ++ r)%string :: ls -> w <> "" -> no_space w = true ->
  equal_fold w n = true \/ lower_first w = false ->
  removeGoFieldComment u equal_fold (comment_of n text) = Ok (comment_of "" text).
Proof.
  intros N B E W S1 C. destruct (comment_of_lines _ _ _ B E) as (ls' & F & Q).
  rewrite (Q n) by apply N. rewrite (Q "" eq_refl). cbn [comment_lines]. rewrite (name_line n _ (go_name_ne n N)).
  inversion F as [|? ? F1 _]; subst. unfold no_nl in F1. rewrite !all_app in F1. apply andb_true_iff in F1.
  destruct F1 as [F1 F2]. rewrite (remove_cases n w r _ N S1 F1) by exact F2.
  destruct (equal_fold w n) eqn:EF; [reflexivity|]. destruct C as [C|C]; [discriminate|]. unfold lower_first in C.
  pose proof (runes_ne w W) as R. destruct (runes w) as [|c x]; [congruence|]. rewrite C. reflexivity.
Qed.

Theorem comment_kept n text w r ls : go_name n -> blank text = false ->
  lines_of text = (w ++ " " ++ r)%string :: ls -> no_space w = true ->
  equal_fold w n = false -> lower_first w = true ->
  removeGoFieldComment u equal_fold (comment_of n text) = Ok (comment_of n text).
Proof.
  intros N B E S1 EF C. destruct (comment_of_lines _ _ _ B E) as (ls' & F & Q).
  rewrite (Q n) by apply N. cbn [comment_lines]. rewrite (name_line n _ (go_name_ne n N)).
  inversion F as [|? ? F1 _]; subst. unfold no_nl in F1. rewrite !all_app in F1. apply andb_true_iff in F1.
  destruct F1 as [F1 F2]. rewrite (remove_cases n w r _ N S1 F1) by exact F2.
  rewrite EF. unfold lower_first in C. destruct (runes w) as [|c x]; [discriminate|]. rewrite C. reflexivity.
Qed.

Theorem comment_one_word n text l ls : go_name n -> blank text = false ->
  lines_of text = l :: ls -> no_space l = true ->
  removeGoFieldComment u equal_fold (comment_of n text) = Ok (comment_of n text).
Proof.
  intros N B E S1. destruct (comment_of_lines _ _ _ B E) as (ls' & F & Q).
  rewrite (Q n) by apply N. cbn [comment_lines]. rewrite (name_line n _ (go_name_ne n N)). apply remove_short; assumption.
Qed.

Theorem comment_panics n text r ls : go_name n -> blank text = false ->
  lines_of text = (" " ++ r)%string :: ls -> equal_fold "" n = false ->
  removeGoFieldComment u equal_fold (comment_of n text) = Panic.
Proof.
  intros N B E EF. destruct (comment_of_lines _ _ _ B E) as (ls' & F & Q).
  rewrite (Q n) by apply N. cbn [comment_lines]. rewrite (name_line n _ (go_name_ne n N)).
  inversion F as [|? ? F1 _]; subst. pose proof (remove_cases n "" r (map (fun l => ("// " ++ l)%string) ls') N eq_refl eq_refl F1) as R.
  cbn [append] in *. rewrite R, EF. reflexivity.
Qed.

(** Without a description. *)
Theorem comment_default n json rest : go_name n -> no_nl json = true -> equal_fold "defines" n = false ->
  removeGoFieldComment u equal_fold (("// " ++ n ++ " defines model for " ++ json ++ ".")%string :: rest)
  = Ok (("// " ++ n ++ " defines model for " ++ json ++ ".")%string :: rest).
Proof.
  intros N J EF.
  assert (M : no_nl ("model for " ++ json ++ ".") = true) by (unfold no_nl in *; rewrite !all_app, J; reflexivity).
  pose proof (remove_cases n "defines" ("model for " ++ json ++ ".") rest N eq_refl eq_refl M) as R. cbn [append] in *.
  rewrite R, EF. reflexivity.
Qed.

(** *** Declarations *)

Lemma todo_keeps l rest : ~ has_todo l -> fixTODOComment (("// " ++ l)%string :: rest) = ("// " ++ l)%string :: rest.
Proof. intros H. unfold fixTODOComment. rewrite todo_kept by exact H. reflexivity. Qed.

Lemma todo_cuts x y rest : no_nl (x ++ " TODO" ++ y) = true -> ~ has_todo y ->
  fixTODOComment (("// " ++ x ++ " TODO" ++ y)%string :: rest) = ("// TODO" ++ y)%string :: rest.
Proof.
  intros L H. unfold fixTODOComment. cbn [append String.length].
  pose proof (todo_cut (S (S (String.length (x ++ " TODO" ++ y)))) x y L H) as Q. cbn [append] in Q. rewrite Q. reflexivity.
Qed.

(** How a declaration is shown afterwards: without the name for types whose
    description begins with a word that is not in lower case, else as it is. *)
Inductive shown : decl -> decl -> Prop :=
| shown_without n text w r ls t ss :
    go_name n -> blank text = false -> lines_of text = (w ++ " " ++ r)%string :: ls -> w <> "" -> no_space w = true ->
    equal_fold w n = true \/ lower_first w = false -> ~ has_todo (w ++ " " ++ r) ->
    shown (DGen (comment_of n text) (SType n t :: ss)) (DGen (comment_of "" text) (SType n t :: ss))
| shown_with n text w r ls t ss :
    go_name n -> blank text = false -> lines_of text = (w ++ " " ++ r)%string :: ls -> no_space w = true ->
    equal_fold w n = false -> lower_first w = true -> ~ has_todo (w ++ " " ++ r) ->
    shown (DGen (comment_of n text) (SType n t :: ss)) (DGen (comment_of n text) (SType n t :: ss))
| shown_word n text l ls t ss :
    go_name n -> blank text = false -> lines_of text = l :: ls -> no_space l = true -> has_prefix l "TODO" = false ->
    shown (DGen (comment_of n text) (SType n t :: ss)) (DGen (comment_of n text) (SType n t :: ss))
| shown_default n json t ss :
    go_name n -> no_nl json = true -> no_space json = true -> has_prefix json "TODO" = false -> equal_fold "defines" n = false ->
    shown (DGen [("// " ++ n ++ " defines model for " ++ json ++ ".")%string] (SType n t :: ss))
          (DGen [("// " ++ n ++ " defines model for " ++ json ++ ".")%string] (SType n t :: ss))
| shown_other c s ss :
    (forall n t, s <> SType n t) -> (forall h r, c = h :: r -> exists l, h = ("// " ++ l)%string /\ ~ has_todo l) ->
    shown (DGen c (s :: ss)) (DGen c (s :: ss))
| shown_bare n t ss : shown (DGen [] (SType n t :: ss)) (DGen [] (SType n t :: ss)).

Lemma has_todo_first n l : no_space n = true -> has_todo (n ++ " " ++ l) -> has_prefix l "TODO" = true \/ has_todo l.
Proof.
  intros NS (x & y & E). revert x E. induction n as [|c r IH]; intros x E.
  - destruct x as [|d x]; cbn in E; injection E as E.
    + left. rewrite E. clear. unfold has_prefix. cbn. destruct y; reflexivity.
    + right. exists x, y. exact H.
  - unfold no_space in *. cbn [all] in NS. apply andb_true_iff in NS. destruct NS as [N1 N2].
    destruct x as [|d x]; cbn in E; injection E as E1 E.
    + subst c. discriminate.
    + apply (IH N2 x E).
Qed.

Lemma no_space_todo l : no_space l = true -> ~ has_todo l.
Proof.
  intros H (x & y & ->). unfold no_space in H. rewrite all_app in H. cbn in H. rewrite andb_false_r in H. discriminate.
Qed.

Lemma todo_dot s : has_prefix (s ++ ".") "TODO" = true -> has_prefix s "TODO" = true.
Proof.
  unfold has_prefix. rewrite !prefix_iff. intros [t E].
  do 4 (destruct s as [|? s]; [discriminate|cbn in E; injection E as -> E]). exists s. reflexivity.
Qed.

Theorem decl_shown d d' : shown d d' -> fix_decl u equal_fold d = Ok d'.
Proof.
  intros H. destruct H as [n text w r ls t ss N B E W S1 C T|n text w r ls t ss N B E S1 EF C T|n text l ls t ss N B E S1 T
    |n json t ss N J1 J2 J3 EF|c s ss NT H|n t ss]; unfold fix_decl; cbn [isTypeSpec bind decl_comments].
  - rewrite (comment_dropped n text w r ls N B E W S1 C). cbn [bind with_comments].
    destruct (comment_of_lines _ _ _ B E) as (ls' & F & Q). rewrite (Q "" eq_refl). cbn [comment_lines].
    change (String.eqb "" "") with true. cbv iota. change ("//" ++ " " ++ w ++ " " ++ r)%string with ("// " ++ (w ++ " " ++ r))%string.
    rewrite todo_keeps by exact T. reflexivity.
  - rewrite (comment_kept n text w r ls N B E S1 EF C). cbn [bind with_comments].
    destruct (comment_of_lines _ _ _ B E) as (ls' & F & Q). rewrite (Q n) by apply N. cbn [comment_lines].
    rewrite (name_line n _ (go_name_ne n N)). rewrite todo_keeps; [reflexivity|].
    intros X. apply has_todo_first in X; [|apply N]. destruct X as [X|X]; [|exact (T X)].
    assert (L : lower_first w = false); [|congruence].
    unfold has_prefix in X. apply prefix_iff in X. destruct X as [z X]. destruct w as [|c w]; [reflexivity|].
    cbn in X. injection X as -> _. reflexivity.
  - rewrite (comment_one_word n text l ls N B E S1). cbn [bind with_comments].
    destruct (comment_of_lines _ _ _ B E) as (ls' & F & Q). rewrite (Q n) by apply N. cbn [comment_lines].
    rewrite (name_line n _ (go_name_ne n N)). rewrite todo_keeps; [reflexivity|].
    intros X. apply has_todo_first in X; [|apply N]. destruct X as [X|X]; [congruence|exact (no_space_todo l S1 X)].
  - rewrite (comment_default n json [] N J1 EF). cbn [bind with_comments]. 
    rewrite todo_keeps; [reflexivity|]. change (n ++ " defines model for " ++ json ++ ".")%string with (n ++ " " ++ "defines model for " ++ json ++ ".")%string.
    intros X. apply has_todo_first in X; [|apply N]. destruct X as [X|X]; [discriminate|].
    apply (has_todo_first "defines") in X; [|reflexivity]. destruct X as [X|X]; [discriminate|].
    apply (has_todo_first "model") in X; [|reflexivity]. destruct X as [X|X]; [discriminate|].
    apply (has_todo_first "for") in X; [|reflexivity]. destruct X as [X|X].
    + apply todo_dot in X. congruence.
    + revert X. apply no_space_todo. unfold no_space in *. rewrite all_app, J2. reflexivity.
  - destruct s as [n t|ns t|p]; [exfalso; exact (NT n t eq_refl)| |]; cbn [bind with_comments];
      (destruct c as [|h r]; [reflexivity|]); destruct (H h r eq_refl) as (l & -> & T); rewrite todo_keeps by exact T; reflexivity.
  - reflexivity.
Qed.
End Comments.

Lemma file_shown u fold f f' : Forall2 (shown u fold) f f' -> fixTODOComments u fold f = Ok f'.
Proof.
  intros H. unfold fixTODOComments. induction H as [|d d' f f' D F IH]; [reflexivity|].
  cbn [omap]. rewrite (decl_shown u fold d d' D). cbn [bind]. rewrite IH. reflexivity.
Qed.

Lemma file_empty u fold f c g : Forall (fun d => exists d', shown u fold d d') f ->
  fixTODOComments u fold (f ++ DGen c [] :: g) = Panic.
Proof.
  intros H. unfold fixTODOComments. induction H as [|d f [d' D] F IH]; [reflexivity|].
  cbn [omap app]. rewrite (decl_shown u fold d d' D). cbn [bind]. rewrite IH. reflexivity.
Qed.

Lemma field_as_type u fold names c : names <> [] -> fix_field u fold names c = removeGoFieldComment u fold c.
Proof. destruct names; [congruence|reflexivity]. Qed.

Lemma field_embedded u fold h :
  (forall names c, fix_field u fold names h = Ok c -> c <> h -> names <> []) /\ fix_field u fold [] h <> Panic.
Proof.
  split; [|discriminate]. intros names c H N ->. apply N. cbn in H. injection H as <-. reflexivity.
Qed.

(** Other lines never change. *)
Lemma remove_rest u fold h t c' : removeGoFieldComment u fold (h :: t) = Ok c' -> exists h', c' = h' :: t.
Proof.
  unfold removeGoFieldComment. intros E.
  repeat match type of E with
  | Ok _ = Ok _ => injection E as <-; eexists; reflexivity
  | Panic = Ok _ => discriminate
  | context [match ?x with _ => _ end] => destruct x
  end.
Qed.


Lemma comments_differ : forall u, exists n,
  go_name n /\
  (exists text, removeGoFieldComment u String.eqb (comment_of n text) = Ok (comment_of n text) /\
     comment_of n text <> comment_of "" text) /\
  (exists text, removeGoFieldComment u String.eqb (comment_of n text) = Panic) /\
  (exists text, fixTODOComments u String.eqb [DGen (comment_of n text) [SType n (TStruct [])]]
     = Ok [DGen ["// TODO rename"] [SType n (TStruct [])]] /\ comment_of "" text = ["// Panels of a board, TODO rename"]).
Proof.
  intros u. exists "Panel". split; [split; [exists "P"%char, "anel"; auto|auto]|]. split; [|split].
  - exists "a panel". split; [vm_compute; reflexivity|vm_compute; discriminate].
  - exists " a panel". vm_compute. reflexivity.
  - exists "Panels of a board, TODO rename". split; vm_compute; reflexivity.
Qed.
