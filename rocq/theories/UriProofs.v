(** Proofs about Uri.v. *)
From Coq Require Import Permutation.
From Verif Require Import Prelude Strings Version VersionProofs GenName Uri.
Local Open Scope string_scope.
Local Open Scope list_scope.

(** *** Specification *)

Fixpoint letters (s : string) : list ascii := match s with "" => [] | String c r => c :: letters r end.

Definition inside (c : ascii) : Prop := c <> "{"%char /\ c <> "}"%char /\ c <> "*"%char.
Definition opener (c : ascii) : Prop := In c ["."; ";"; "?"]%char.

(** [{name}], with one of [.], [;] and [?] before the name and a [*] after it or
    not; such a character is part of the name only if it is all of it. *)
Inductive param : string -> string -> Prop :=
| Param pre name star : (pre = "" \/ exists c, opener c /\ pre = String c "") -> name <> "" ->
    Forall inside (letters name) -> (star = "" \/ star = "*") ->
    (pre = "" -> forall c r, name = String c r -> r <> "" -> ~ opener c) ->
    param ("{" ++ pre ++ name ++ star ++ "}")%string name.

(** A path as characters and parameters: at a character no parameter begins. *)
Inductive reads : string -> list (ascii + string) -> Prop :=
| ReadsEnd : reads "" []
| ReadsParam t n s ps : param t n -> reads s ps -> reads (t ++ s)%string (inr n :: ps)
| ReadsChar c s ps : (forall t n r, param t n -> String c s <> (t ++ r)%string) -> reads s ps ->
    reads (String c s) (inl c :: ps).

Fixpoint names_in (ps : list (ascii + string)) : list string :=
  match ps with [] => [] | inl _ :: r => names_in r | inr n :: r => n :: names_in r end.
Fixpoint written_with (f : string -> string) (ps : list (ascii + string)) : string :=
  match ps with [] => "" | inl c :: r => String c (written_with f r) | inr n :: r => (f n ++ written_with f r)%string end.

(** *** Matching *)

Lemma app_assoc_s (a b c : string) : ((a ++ b) ++ c)%string = (a ++ b ++ c)%string.
Proof. induction a as [|x a IH]; [reflexivity|]. cbn. rewrite IH. reflexivity. Qed.

Lemma in_class_iff c : in_class c = true <-> inside c.
Proof.
  unfold in_class, inside. destruct (Ascii.eqb_spec c "{"), (Ascii.eqb_spec c "}"), (Ascii.eqb_spec c "*"); cbn; split; try discriminate; tauto.
Qed.
Lemma prefix_iff c : is_prefix_char c = true <-> opener c.
Proof.
  unfold is_prefix_char, opener. cbn. destruct (Ascii.eqb_spec c "."), (Ascii.eqb_spec c ";"), (Ascii.eqb_spec c "?"); cbn; split; try discriminate;
    try (intros; reflexivity); intuition congruence.
Qed.

Lemma take_run_app b : forall t, Forall inside (letters b) -> (forall c r, t = String c r -> ~ inside c) ->
  take_run (b ++ t) = (b, t).
Proof.
  induction b as [|c b IH]; intros t F N.
  - cbn [append]. destruct t as [|c t]; [reflexivity|]. cbn [take_run]. destruct (in_class c) eqn:E; [|reflexivity].
    exfalso. apply (N c t eq_refl). apply in_class_iff, E.
  - inversion F as [|? ? F1 F2]; subst. cbn [append take_run]. rewrite (proj2 (in_class_iff c) F1), (IH t F2 N). reflexivity.
Qed.

Lemma take_run_spec s : exists b t, take_run s = (b, t) /\ s = (b ++ t)%string /\ Forall inside (letters b) /\
  forall c r, t = String c r -> ~ inside c.
Proof.
  induction s as [|c s (b & t & E & -> & F & N)].
  - exists "", "". repeat split; try constructor; discriminate.
  - cbn [take_run]. destruct (in_class c) eqn:C.
    + rewrite E. exists (String c b), t. repeat split; [constructor; [apply in_class_iff, C|exact F]|exact N].
    + exists "", (String c (b ++ t)). repeat split; [constructor|]. intros c' r [= <- _] H. apply in_class_iff in H. congruence.
Qed.

Lemma match_complete t n r : param t n -> match_at (t ++ r) = Some (n, r).
Proof.
  intros P. destruct P as [pre name star Hpre Hn F Hs A].
  assert (L : forall x, ("{" ++ x ++ star ++ "}")%string = String "{" (x ++ star ++ "}")) by reflexivity.
  assert (R : forall x, Forall inside (letters x) -> take_run (((x ++ star ++ "}") ++ r)%string) = (x, (star ++ "}" ++ r)%string)).
  { intros x X. rewrite app_assoc_s. rewrite take_run_app; [rewrite app_assoc_s; reflexivity|exact X|].
    intros c q E [_ [H1 H2]]. destruct Hs as [-> | ->]; cbn in E; injection E as <- _; congruence. }
  assert (M : forall run, run <> "" -> Forall inside (letters run) ->
    match_at (("{" ++ run ++ star ++ "}") ++ r) = Some (group1 run, r)).
  { intros run Z X. change (("{" ++ run ++ star ++ "}") ++ r)%string with (String "{" ((run ++ star ++ "}") ++ r)).
    cbn [match_at]. rewrite R by exact X. cbn [Ascii.eqb Bool.eqb]. destruct run as [|c run]; [congruence|].
    destruct Hs as [-> | ->]; reflexivity. }
  destruct Hpre as [-> | (c & O & ->)].
  - change ("{" ++ "" ++ name ++ star ++ "}")%string with ("{" ++ name ++ star ++ "}")%string. rewrite M by assumption.
    f_equal. f_equal. unfold group1. destruct name as [|c [|d x]]; [congruence|reflexivity|].
    destruct (is_prefix_char c) eqn:E; [|reflexivity]. exfalso. apply (A eq_refl c (String d x) eq_refl); [discriminate|]. apply prefix_iff, E.
  - change ("{" ++ String c "" ++ name ++ star ++ "}")%string with ("{" ++ String c name ++ star ++ "}")%string.
    rewrite M; [|discriminate|constructor; [|exact F]].
    + f_equal. f_equal. unfold group1. destruct name as [|d x]; [congruence|]. rewrite (proj2 (prefix_iff c) O). reflexivity.
    + unfold inside. cbn in O. intuition congruence.
Qed.

Lemma match_sound s n r : match_at s = Some (n, r) -> exists t, param t n /\ s = (t ++ r)%string.
Proof.
  destruct s as [|c s]; [discriminate|]. cbn [match_at]. destruct (Ascii.eqb_spec c "{") as [->|]; [|discriminate].
  destruct (take_run_spec s) as (run & t & E & -> & F & N). rewrite E. destruct run as [|c b]; [discriminate|].
  set (run := String c b) in *. assert (B : run = String c b) by reflexivity. clearbody run.
  assert (Q : exists star, (star = "" \/ star = "*") /\
    match t with String d r' => if Ascii.eqb d "*" then r' else t | _ => t end = match t with String d r' => if Ascii.eqb d "*" then r' else t | _ => t end /\
    t = (star ++ match t with String d r' => if Ascii.eqb d "*" then r' else t | _ => t end)%string).
  { destruct t as [|d t]; [exists ""; repeat split; left; reflexivity|]. destruct (Ascii.eqb_spec d "*") as [->|].
    - exists "*". repeat split. right. reflexivity.
    - exists "". repeat split. left. reflexivity. }
  destruct Q as (star & Hs & _ & Q). remember (match t with String d r' => if Ascii.eqb d "*" then r' else t | _ => t end) as u eqn:U. clear U.
  destruct u as [|d tail]; [discriminate|]. destruct (Ascii.eqb_spec d "}") as [->|]; [|discriminate].
  intros [= <- <-]. rewrite Q.
  assert (G : exists pre, (pre = "" \/ exists c, opener c /\ pre = String c "") /\ run = (pre ++ group1 run)%string /\
    (pre = "" -> forall c r, group1 run = String c r -> r <> "" -> ~ opener c)).
  { rewrite B. unfold group1. destruct b as [|c1 b].
    - exists "". split; [left; reflexivity|]. split; [reflexivity|]. intros _ c' r' [= _ <-] X. congruence.
    - destruct (is_prefix_char c) eqn:P.
      + exists (String c ""). split; [right; exists c; split; [apply prefix_iff, P|reflexivity]|]. split; [reflexivity|discriminate].
      + exists "". split; [left; reflexivity|]. split; [reflexivity|]. intros _ c' r' [= <- _] _ O. apply prefix_iff in O. congruence. }
  destruct G as (pre & Hpre & G & A).
  exists ("{" ++ pre ++ group1 run ++ star ++ "}")%string. split.
  - constructor; try assumption.
    + rewrite B. unfold group1. destruct b as [|c1 b]; [discriminate|]. destruct (is_prefix_char c); discriminate.
    + rewrite G in F. clear - F. induction pre as [|x pre IH]; [exact F|]. inversion F; subst. apply IH. assumption.
  - rewrite G at 1. cbn [append]. rewrite !app_assoc_s. reflexivity.
Qed.

Lemma match_none s : match_at s = None -> forall t n r, param t n -> s <> (t ++ r)%string.
Proof. intros E t n r P ->. rewrite (match_complete t n r P) in E. discriminate E. Qed.

Lemma param_long t n : param t n -> 1 <= String.length t.
Proof. intros P. inversion P. cbn. lia. Qed.

Lemma length_app_s a b : String.length (a ++ b) = String.length a + String.length b.
Proof. induction a as [|c a IH]; [reflexivity|]. cbn. rewrite IH. reflexivity. Qed.

Lemma pieces_loop_reads f : forall s, String.length s <= f -> reads s (pieces_loop f s).
Proof.
  induction f as [|f IH]; intros s L.
  - destruct s; [constructor|cbn in L; lia].
  - cbn [pieces_loop]. destruct (match_at s) as [[n tail]|] eqn:E.
    + destruct (match_sound s n tail E) as (t & P & ->). constructor; [exact P|]. apply IH.
      rewrite length_app_s in L. assert (Q := param_long t n P). lia.
    + destruct s as [|c s]; [constructor|]. constructor; [exact (match_none _ E)|]. apply IH. cbn in L. lia.
Qed.

Lemma pieces_reads s : reads s (pieces s).
Proof. apply pieces_loop_reads. apply Nat.le_refl. Qed.

Lemma app_head (t a b : string) : (t ++ a)%string = (t ++ b)%string -> a = b.
Proof. induction t as [|c t IH]; [auto|]. cbn. intros [= E]. auto. Qed.

Lemma reads_fun s ps : reads s ps -> forall ps', reads s ps' -> ps = ps'.
Proof.
  induction 1 as [|t n s ps P R IH|c s ps N R IH]; intros ps' R'.
  - inversion R' as [|t n s ps P R E1 E2|]; [reflexivity|]. exfalso. apply param_long in P. destruct t; [cbn in P; lia|discriminate E1].
  - remember (t ++ s)%string as w eqn:W. destruct R' as [|t' n' s' ps' P' R'|c s' ps' N' R'].
    + exfalso. apply param_long in P. destruct t; [cbn in P; lia|discriminate W].
    + assert (M := match_complete t n s P). rewrite <- W, (match_complete t' n' s' P') in M. injection M as -> ->.
      f_equal. apply IH, R'.
    + exfalso. exact (N' t n s P W).
  - remember (String c s) as w eqn:W. destruct R' as [|t' n' s' ps' P' R'|c' s' ps' N' R'].
    + discriminate W.
    + exfalso. exact (N t' n' s' P' eq_refl).
    + injection W as -> ->. f_equal. apply IH, R'.
Qed.

Lemma reads_pieces s ps : reads s ps -> pieces s = ps.
Proof. exact (reads_fun s _ (pieces_reads s) ps). Qed.

Lemma concat_written f ps :
  String.concat "" (map (fun p => match p with inl c => String c "" | inr n => f n end) ps) = written_with f ps.
Proof.
  assert (Z : forall x : string, (x ++ "")%string = x) by (induction x as [|c x IH]; [reflexivity|]; cbn; rewrite IH; reflexivity).
  assert (C : forall x l, String.concat "" (x :: l) = (x ++ String.concat "" l)%string).
  { intros x [|y l]; [cbn; symmetry; apply Z|reflexivity]. }
  induction ps as [|p ps IH]; [reflexivity|]. cbn [map]. rewrite C, IH. destruct p; reflexivity.
Qed.

Lemma uri_exact uri ps : reads uri ps ->
  orderedParamsFromUri uri = names_in ps /\
  swaggerUriToEchoUri uri = written_with (fun n => (":" ++ n)%string) ps /\
  swaggerUriToFiberUri uri = written_with (fun n => (":" ++ n)%string) ps /\
  swaggerUriToGinUri uri = written_with (fun n => (":" ++ n)%string) ps /\
  swaggerUriToChiUri uri = written_with (fun n => ("{" ++ n ++ "}")%string) ps /\
  swaggerUriToGorillaUri uri = written_with (fun n => ("{" ++ n ++ "}")%string) ps /\
  replacePathParamsWithStr uri = written_with (fun _ => "%s") ps.
Proof.
  intros R. unfold swaggerUriToEchoUri, swaggerUriToFiberUri, swaggerUriToGinUri, swaggerUriToChiUri, swaggerUriToGorillaUri,
    replacePathParamsWithStr, replace_all, orderedParamsFromUri. rewrite (reads_pieces uri ps R), !concat_written.
  split; [|repeat split]. clear. induction ps as [|[c|n] ps IH]; cbn; [reflexivity|exact IH|rewrite IH; reflexivity].
Qed.

Lemma uri_reads uri : exists ps, reads uri ps /\ forall ps', reads uri ps' -> ps' = ps.
Proof. exists (pieces uri). split; [apply pieces_reads|]. intros ps' R. symmetry. apply reads_pieces, R. Qed.

(** A path made of pieces of text without braces and of parameters. *)
Inductive built : string -> list (ascii + string) -> Prop :=
| BuiltEnd : built "" []
| BuiltParam t n s ps : param t n -> built s ps -> built (t ++ s)%string (inr n :: ps)
| BuiltChar c s ps : c <> "{"%char -> built s ps -> built (String c s) (inl c :: ps).

Lemma built_reads s ps : built s ps -> reads s ps.
Proof.
  induction 1 as [|t n s ps P B IH|c s ps D B IH]; constructor; try assumption.
  intros t n r P E. inversion P; subst. cbn in E. injection E as E _. congruence.
Qed.

(** *** Sorting *)

Section Sort.
Context {A : Type}.

Definition first_named (ps : list (param_def A)) (n : string) (p : param_def A) : Prop :=
  exists a b, ps = a ++ p :: b /\ pname p = n /\ forall q, In q a -> pname q <> n.

Lemma find_some ps n (p : param_def A) : findByName ps n = Some p -> first_named ps n p.
Proof.
  unfold findByName. induction ps as [|q ps IH]; [discriminate|]. cbn [find]. destruct (String.eqb_spec (pname q) n) as [E|D].
  - intros [= <-]. exists [], ps. split; [reflexivity|]. split; [exact E|intros _ []].
  - intros H. destruct (IH H) as (a & b & -> & E & N). exists (q :: a), b. split; [reflexivity|]. split; [exact E|].
    intros x [<-|I]; [exact D|exact (N x I)].
Qed.

Lemma find_none ps n : findByName (A := A) ps n = None -> forall p, In p ps -> pname p <> n.
Proof. unfold findByName. intros H p I E. assert (X := find_none _ _ H p I). cbn in X. rewrite E, String.eqb_refl in X. discriminate X. Qed.

Lemma sort_loop_exact path ps ns :
  (exists out, Forall2 (first_named ps) ns out /\ sort_loop path ps ns = Ok out) \/
  (exists a n b, ns = a ++ n :: b /\ (forall m, In m a -> exists p : param_def A, In p ps /\ pname p = m) /\
     (forall p, In p ps -> pname p <> n) /\
     sort_loop path ps ns = Err (mkErr [] ("path '" ++ path ++ "' refers to parameter '" ++ n ++ "', which doesn't exist in specification")%string)).
Proof.
  induction ns as [|n ns IH]; [left; exists []; split; [constructor|reflexivity]|]. cbn [sort_loop].
  destruct (findByName ps n) as [p|] eqn:E.
  - assert (P := find_some _ _ _ E). destruct IH as [(out & F & S)|(a & m & b & -> & K & N & S)].
    + left. exists (p :: out). rewrite S. split; [constructor; assumption|reflexivity].
    + right. exists (n :: a), m, b. rewrite S. split; [reflexivity|]. split; [|split; [exact N|reflexivity]].
      intros x [<-|I]; [|exact (K x I)]. destruct P as (l & r & -> & Q & _). exists p. split; [apply in_or_app; right; left; reflexivity|exact Q].
  - right. exists [], n, ns. split; [reflexivity|]. split; [intros _ []|]. split; [exact (find_none _ _ E)|reflexivity].
Qed.

Lemma sort_exact path ps (l : list (param_def A)) : reads path ps ->
  (length (names_in ps) <> length l /\
   sortParamsByPath path l = Err (mkErr [] ("path '" ++ path ++ "' has " ++ itoa (length (names_in ps)) ++
     " positional parameters, but spec has " ++ itoa (length l) ++ " declared")%string)) \/
  (length (names_in ps) = length l /\
   ((exists out, Forall2 (first_named l) (names_in ps) out /\ sortParamsByPath path l = Ok out) \/
    (exists a n b, names_in ps = a ++ n :: b /\ (forall m, In m a -> exists p, In p l /\ pname p = m) /\
      (forall p, In p l -> pname p <> n) /\
      sortParamsByPath path l = Err (mkErr [] ("path '" ++ path ++ "' refers to parameter '" ++ n ++
        "', which doesn't exist in specification")%string)))).
Proof.
  intros R. destruct (uri_exact path ps R) as [E _]. unfold sortParamsByPath. rewrite E.
  destruct (Nat.eqb_spec (length (names_in ps)) (length l)) as [L|L]; [right|left; split; [exact L|reflexivity]].
  split; [exact L|]. apply sort_loop_exact.
Qed.

Lemma sort_permutation path ps (l out : list (param_def A)) : reads path ps -> NoDup (names_in ps) ->
  sortParamsByPath path l = Ok out -> Permutation l out /\ map pname out = names_in ps.
Proof.
  intros R D E. destruct (sort_exact path ps l R) as [[_ X]|[L [(out' & F & X)|(a & n & b & _ & _ & _ & X)]]]; rewrite X in E; try discriminate E.
  injection E as ->.
  assert (M : map pname out = names_in ps).
  { clear - F. induction F as [|n p ns out (a & b & _ & E & _) F IH]; [reflexivity|]. cbn. rewrite E, IH. reflexivity. }
  split; [|exact M]. symmetry. apply NoDup_Permutation_bis.
  - apply (NoDup_map_inv pname). rewrite M. exact D.
  - rewrite <- L, <- M, map_length. apply Nat.le_refl.
  - intros p I. clear - F I. induction F as [|n q ns out (a & b & -> & _) F IH]; [destruct I|].
    destruct I as [<-|I]; [apply in_or_app; right; left; reflexivity|exact (IH I)].
Qed.
End Sort.

Lemma sort_refuted : exists path (l out : list (param_def unit)), sortParamsByPath path l = Ok out /\
  NoDup (map pname l) /\ exists p, In p l /\ ~ In p out.
Proof.
  exists "/{a}/{a}", [mkParam "a" "path" tt; mkParam "b" "path" tt], [mkParam "a" "path" tt; mkParam "a" "path" tt].
  split; [vm_compute; reflexivity|]. split; [repeat (constructor; [cbn; intuition discriminate|]); constructor|].
  exists (mkParam "b" "path" tt). split; [right; left; reflexivity|]. cbn. intuition discriminate.
Qed.

(** A parameter of the path that the operation declares again. *)
Lemma override_refuted : exists path (g l : param_def nat), pname g = pname l /\ pin g = pin l /\
  reads path (map inl ["/"; "u"; "/"]%char ++ [inr (pname l)]) /\
  pathParams path [g] [] = Ok [g] /\ pathParams path [] [l] = Ok [l] /\ forall out, pathParams path [g] [l] <> Ok out.
Proof.
  exists "/u/{id}", (mkParam "id" "path" 1), (mkParam "id" "path" 2). split; [reflexivity|]. split; [reflexivity|].
  split; [exact (pieces_reads "/u/{id}")|]. split; [vm_compute; reflexivity|]. split; [vm_compute; reflexivity|].
  intros out E. vm_compute in E. discriminate E.
Qed.

(** *** Escaping *)

Definition hex_value (c : ascii) : option N :=
  let n := N_of_ascii c in
  if ((48 <=? n) && (n <=? 57))%N then Some (n - 48)%N
  else if ((65 <=? n) && (n <=? 70))%N then Some (n - 55)%N
  else if ((97 <=? n) && (n <=? 102))%N then Some (n - 87)%N
  else None.

(** What a server makes of an element of a path: [%XX] is a byte, everything else
    stands for itself. In a query a [+] is a space, too. *)
Fixpoint decoded (query : bool) (s : string) : option string :=
  match s with
  | EmptyString => Some EmptyString
  | String c r =>
      if Ascii.eqb c "%" then
        match r with
        | String h (String l r') =>
            match hex_value h, hex_value l, decoded query r' with
            | Some x, Some y, Some t => Some (String (ascii_of_N (16 * x + y)) t)
            | _, _, _ => None
            end
        | _ => None
        end
      else option_map (String (if query && Ascii.eqb c "+" then " "%char else c)) (decoded query r)
  end.

Fixpoint plussed (s : string) : string :=
  match s with "" => "" | String c r => String (if Ascii.eqb c " " then "+"%char else c) (plussed r) end.

Definition char_ok (c : ascii) : bool :=
  if unreserved c then negb (Ascii.eqb c "%" || Ascii.eqb c "+" || Ascii.eqb c " " || Ascii.eqb c "/")
  else if Ascii.eqb c " " then true
  else match hex_value (hex_digit (N_of_ascii c / 16)), hex_value (hex_digit (N_of_ascii c mod 16)) with
       | Some x, Some y => Ascii.eqb (ascii_of_N (16 * x + y)) c && negb (Ascii.eqb (hex_digit (N_of_ascii c / 16)) "/")
                           && negb (Ascii.eqb (hex_digit (N_of_ascii c mod 16)) "/")
       | _, _ => false
       end.
Lemma all_ok c : char_ok c = true.
Proof. destruct c as [[] [] [] [] [] [] [] []]; vm_compute; reflexivity. Qed.

Lemma escape_decoded q s : decoded q (queryEscape s) = Some (if q then s else plussed s).
Proof.
  induction s as [|c s IH]; [destruct q; reflexivity|]. cbn [queryEscape]. unfold escape_char. assert (O := all_ok c). unfold char_ok in O.
  destruct (unreserved c).
  - cbn [append decoded]. destruct (Ascii.eqb c "%"); [discriminate O|]. rewrite IH. destruct (Ascii.eqb c "+") eqn:P; [discriminate O|].
    rewrite andb_false_r. cbn [option_map plussed]. destruct (Ascii.eqb c " ") eqn:Sp; [discriminate O|]. destruct q; reflexivity.
  - destruct (Ascii.eqb_spec c " ") as [->|D].
    + cbn [append decoded]. change (Ascii.eqb "+" "%") with false. cbv iota. rewrite IH. destruct q; reflexivity.
    + cbn [append decoded]. change (Ascii.eqb "%" "%") with true. cbv iota.
      destruct (hex_value (hex_digit (N_of_ascii c / 16))); [|discriminate O].
      destruct (hex_value (hex_digit (N_of_ascii c mod 16))); [|discriminate O]. rewrite IH.
      apply andb_true_iff in O. destruct O as [O _]. apply andb_true_iff in O. destruct O as [O _]. apply Ascii.eqb_eq in O. rewrite O.
      cbn [plussed]. destruct (Ascii.eqb_spec c " ") as [|_]; [congruence|]. destruct q; reflexivity.
Qed.

Lemma escape_slashless s : ~ In "/"%char (letters (queryEscape s)).
Proof.
  induction s as [|c s IH]; [intros []|]. cbn [queryEscape]. unfold escape_char. assert (O := all_ok c). unfold char_ok in O.
  destruct (unreserved c).
  - cbn. intros [->|I]; [discriminate O|exact (IH I)].
  - destruct (Ascii.eqb c " "); [cbn; intros [E|I]; [discriminate E|exact (IH I)]|].
    destruct (hex_value (hex_digit (N_of_ascii c / 16))); [|discriminate O].
    destruct (hex_value (hex_digit (N_of_ascii c mod 16))); [|discriminate O].
    apply andb_true_iff in O. destruct O as [O O2]. apply andb_true_iff in O. destruct O as [_ O1].
    cbn [append letters]. intros [E|[E|[E|I]]]; [discriminate E|rewrite E in O1; discriminate O1|rewrite E in O2; discriminate O2|exact (IH I)].
Qed.

(** The elements of a path. *)
Fixpoint slashes (ps : list string) : string :=
  match ps with
  | [] => ""
  | [p] => p
  | p :: r => (p ++ String "/" (slashes r))%string
  end.
Definition slashless (p : string) : Prop := ~ In "/"%char (letters p).

(** An element in braces. *)
Definition braced (e : string) : Prop := (exists r, e = String "{" r) /\ exists r, e = (r ++ "}")%string.

Lemma suffix_iff e : has_suffix e "}" = true <-> exists r, e = (r ++ "}")%string.
Proof.
  induction e as [|c e IH].
  - cbn. split; [discriminate|]. intros ([|] & E); discriminate E.
  - change (has_suffix (String c e) "}") with (String.eqb (String c e) "}" || has_suffix e "}"). rewrite orb_true_iff. split.
    + intros [H|H]; [apply String.eqb_eq in H; rewrite H; exists ""; reflexivity|]. apply (proj1 IH) in H. destruct H as (r & ->). exists (String c r). reflexivity.
    + intros ([|d r] & E); [left; rewrite E; reflexivity|]. injection E as <- E. right. apply (proj2 IH). exists r. exact E.
Qed.

Lemma braced_iff e : has_prefix e "{" && has_suffix e "}" = true <-> braced e.
Proof.
  rewrite andb_true_iff, suffix_iff. unfold braced, has_prefix. split; intros [H1 H2]; split; try exact H2.
  - destruct e as [|c e]; [discriminate H1|]. cbn [String.prefix] in H1. destruct (ascii_dec "{" c) as [<-|]; [exists e; reflexivity|discriminate H1].
  - destruct H1 as (r & ->). cbn [String.prefix]. destruct (ascii_dec "{" "{"); [destruct r; reflexivity|congruence].
Qed.

Lemma split_slashes ps : ps <> [] -> Forall slashless ps -> split_on "/" (slashes ps) = ps.
Proof.
  assert (H : forall p, slashless p -> has_char "/" p = false).
  { unfold slashless. induction p as [|c p IH]; intros N; [reflexivity|]. cbn [has_char]. rewrite IH by (intros X; apply N; right; exact X).
    destruct (Ascii.eqb_spec c "/") as [->|D]; [destruct N; left; reflexivity|]. reflexivity. }
  intros Ne F. induction F as [|p ps N F IH]; [congruence|]. destruct ps as [|q ps].
  - cbn [slashes]. apply split_on_nochar, H, N.
  - change (slashes (p :: q :: ps)) with (p ++ String "/" (slashes (q :: ps)))%string.
    rewrite split_on_app by (apply H, N). f_equal. apply IH. discriminate.
Qed.

Lemma join_slashes ps : join "/" ps = slashes ps.
Proof. induction ps as [|p [|q ps] IH]; [reflexivity|reflexivity|]. change (join "/" (p :: q :: ps)) with (p ++ "/" ++ join "/" (q :: ps))%string. rewrite IH. reflexivity. Qed.

Lemma escape_exact es : es <> [] -> Forall slashless es ->
  exists os, escapePathElements (slashes es) = slashes os /\ Forall slashless os /\
    Forall2 (fun e o => (braced e /\ o = e) \/
      (~ braced e /\ decoded true o = Some e /\ decoded false o = Some (plussed e))) es os.
Proof.
  intros N F. unfold escapePathElements. rewrite split_slashes by assumption. rewrite join_slashes. eexists. split; [reflexivity|].
  clear N. induction F as [|e es S F [IH1 IH2]]; [split; constructor|]. cbn [map].
  destruct (has_prefix e "{" && has_suffix e "}") eqn:B.
  - split; [constructor; assumption|]. constructor; [|exact IH2]. left. split; [apply braced_iff, B|reflexivity].
  - split; [constructor; [apply escape_slashless|exact IH1]|]. constructor; [|exact IH2]. right. split.
    + intros H. apply braced_iff in H. congruence.
    + split; [exact (escape_decoded true e)|exact (escape_decoded false e)].
Qed.

Lemma plussed_id e : ~ In " "%char (letters e) -> plussed e = e.
Proof.
  induction e as [|c e IH]; intros N; [reflexivity|]. cbn [plussed]. rewrite IH by (intros X; apply N; right; exact X).
  destruct (Ascii.eqb_spec c " ") as [->|]; [destruct N; left; reflexivity|reflexivity].
Qed.

Lemma escape_round es : es <> [] -> Forall (fun e => slashless e /\ ~ In " "%char (letters e)) es ->
  exists os, escapePathElements (slashes es) = slashes os /\ Forall slashless os /\
    Forall2 (fun e o => (braced e /\ o = e) \/ (~ braced e /\ decoded false o = Some e)) es os.
Proof.
  intros N F. destruct (escape_exact es N) as (os & E & S & F2); [eapply Forall_impl; [|exact F]; cbn; tauto|].
  exists os. split; [exact E|]. split; [exact S|]. clear - F F2.
  induction F2 as [|e o es os H F2 IH]; [constructor|]. inversion F as [|? ? [_ Sp] F']; subst. constructor; [|exact (IH F')].
  rewrite (plussed_id e Sp) in H. tauto.
Qed.

Lemma escape_refuted : exists e o, slashless e /\ ~ braced e /\ escapePathElements e = o /\ decoded false o <> Some e.
Proof.
  exists "my file", "my+file". split; [vm_compute; intuition discriminate|]. split; [intros [[r E] _]; discriminate E|].
  split; [reflexivity|]. vm_compute. discriminate.
Qed.

(** The characters that need no escape. *)
Definition kept_chars : list ascii :=
  letters "ABCDEFGHIJKLMNOPQRSTUVWXYZabcdefghijklmnopqrstuvwxyz0123456789-_.~".

Definition in_list (c : ascii) (l : list ascii) : bool := existsb (Ascii.eqb c) l.
Lemma in_list_iff c l : in_list c l = true <-> In c l.
Proof.
  unfold in_list. rewrite existsb_exists. split; [intros (x & H & E); apply Ascii.eqb_eq in E; subst x; exact H|].
  intros H. exists c. split; [exact H|apply Ascii.eqb_refl].
Qed.

Definition char_kept (c : ascii) : bool :=
  if in_list c kept_chars then String.eqb (escape_char c) (String c "")
  else negb (String.eqb (escape_char c) (String c "")) &&
       forallb (fun d => in_list d ("%" :: "+" :: kept_chars)%char) (letters (escape_char c)).
Lemma all_kept c : char_kept c = true.
Proof. destruct c as [[] [] [] [] [] [] [] []]; vm_compute; reflexivity. Qed.

Lemma letters_app a b : letters (a ++ b) = letters a ++ letters b.
Proof. induction a as [|c a IH]; [reflexivity|]. cbn [append letters app]. rewrite IH. reflexivity. Qed.

Lemma escape_plain e : Forall (fun c => In c kept_chars) (letters e) -> queryEscape e = e.
Proof.
  induction e as [|c e IH]; intros F; [reflexivity|]. cbn [letters] in F. inversion F as [|? ? Hc F']; subst. cbn [queryEscape].
  rewrite (IH F'). assert (K := all_kept c). unfold char_kept in K. rewrite (proj2 (in_list_iff c _) Hc) in K.
  apply String.eqb_eq in K. rewrite K. reflexivity.
Qed.

Lemma escape_clean e : Forall (fun c => In c ("%" :: "+" :: kept_chars)%char) (letters (queryEscape e)).
Proof.
  induction e as [|c e IH]; [constructor|]. cbn [queryEscape]. rewrite letters_app. apply Forall_app. split; [|exact IH].
  assert (K := all_kept c). unfold char_kept in K. destruct (in_list c kept_chars) eqn:I.
  - apply String.eqb_eq in K. rewrite K. constructor; [|constructor]. right. right. apply in_list_iff, I.
  - apply andb_true_iff in K as [_ K]. rewrite forallb_forall in K. apply Forall_forall. intros d Hd. apply in_list_iff, K, Hd.
Qed.

Lemma escape_only es : es <> [] -> Forall slashless es ->
  exists os, escapePathElements (slashes es) = slashes os /\
    Forall2 (fun e o => (Forall (fun c => In c kept_chars) (letters e) -> o = e) /\
      (~ braced e -> Forall (fun c => In c ("%" :: "+" :: kept_chars)%char) (letters o))) es os.
Proof.
  intros N F. unfold escapePathElements. rewrite split_slashes by assumption. rewrite join_slashes. eexists. split; [reflexivity|].
  clear N F. induction es as [|e es IH]; [constructor|]. cbn [map]. constructor; [|exact IH].
  destruct (has_prefix e "{" && has_suffix e "}") eqn:B.
  - split; [reflexivity|]. intros H. destruct H. apply braced_iff, B.
  - split; [apply escape_plain|intros _; apply escape_clean].
Qed.

(** Some of a list, in its order: all that [P] holds for. *)
Inductive those {A} (P : A -> Prop) : list A -> list A -> Prop :=
| those_nil : those P [] []
| those_in x l k : P x -> those P l k -> those P (x :: l) (x :: k)
| those_out x l k : ~ P x -> those P l k -> those P (x :: l) k.

Lemma path_params {A} path (g l : list (param_def A)) :
  exists k, those (fun p => pin p = "path") (g ++ l) k /\ pathParams path g l = sortParamsByPath path k.
Proof.
  unfold pathParams. eexists. split; [|reflexivity]. unfold filterByType. induction (g ++ l) as [|p r IH]; cbn [filter]; [constructor|].
  destruct (String.eqb_spec (pin p) "path"); constructor; assumption.
Qed.

(** *** Cases *)

Lemma built_case : built "/{;id*}" [inl "/"%char; inr "id"].
Proof.
  constructor; [discriminate|]. change "{;id*}" with (("{" ++ ";" ++ "id" ++ "*" ++ "}") ++ "")%string.
  constructor; [|constructor]. constructor.
  - right. exists ";"%char. split; [right; left; reflexivity|reflexivity].
  - discriminate.
  - repeat (constructor; [repeat split; discriminate|]). constructor.
  - right. reflexivity.
  - discriminate.
Qed.

Lemma braced_case : braced "{id}".
Proof. split; [exists "id}"; reflexivity|exists "{id"; reflexivity]. Qed.
