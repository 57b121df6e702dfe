(** Proofs about OpBodies.v. *)
From Coq Require Import Permutation.
From Verif Require Import Prelude Strings Version GenName GenType OpDefs GenNameProofs GenTypeProofs GenTagProofs GenTypeFacts
  GoJsonSpec GoJsonProofs CliProofs RespCase RespCaseProofs OpBodies OpBodiesSpec.
Local Open Scope string_scope.
Local Open Scope list_scope.

Lemma same_length {A B} (R : A -> B -> Prop) l l' : Forall2 R l l' -> length l = length l'.
Proof. intros H. induction H as [|x y l l' _ _ IH]; [reflexivity|]. cbn. rewrite IH. reflexivity. Qed.

(** *** Tags *)

Lemma suffix_app s p : has_suffix s p = true <-> exists r, s = (r ++ p)%string.
Proof.
  induction s as [|c s IH]; cbn [has_suffix].
  - rewrite orb_false_r, String.eqb_eq. split; [intros <-; exists ""; reflexivity|].
    intros [[|d r] E]; [exact E|discriminate].
  - rewrite orb_true_iff, String.eqb_eq, IH. split.
    + intros [<-|[r ->]]; [exists ""; reflexivity|exists (String c r); reflexivity].
    + intros [[|d r] E]; [left; exact E|]. cbn in E. injection E as <- ->. right. exists r. reflexivity.
Qed.

Lemma json_iff c : isMediaTypeJson c = true <-> json_like c.
Proof. unfold isMediaTypeJson, json_like. rewrite orb_true_iff, String.eqb_eq, suffix_app. reflexivity. Qed.
Lemma multipart_iff c : has_prefix c "multipart/" = true <-> multipart c.
Proof. apply prefix_iff. Qed.
Lemma json_not c : isMediaTypeJson c = false <-> ~ json_like c.
Proof. rewrite <- json_iff. destruct (isMediaTypeJson c); split; congruence. Qed.
Lemma multipart_not c : has_prefix c "multipart/" = false <-> ~ multipart c.
Proof. rewrite <- multipart_iff. destruct (has_prefix c "multipart/"); split; congruence. Qed.

Lemma body_tag_iff c :
  (forall t, body_tag c = Some t <-> tagged c t) /\ (body_tag c = None <-> untagged c).
Proof.
  unfold body_tag, untagged, formdata, text, form. split.
  - intros t. destruct (isMediaTypeJson c) eqn:J.
    { apply json_iff in J. split; [intros Q; injection Q as <-; constructor; exact J|].
      intros H. inversion H as [? K|? K _|? K|? K]; subst; [reflexivity|contradiction| |]; rewrite K in J; apply json_iff in J; discriminate. }
    pose proof J as J'. apply json_not in J.
    destruct (has_prefix c "multipart/") eqn:M.
    { pose proof M as M'. apply multipart_iff in M. split; [intros Q; injection Q as <-; constructor; assumption|].
      intros H. inversion H as [? K|? _ K|? K|? K]; subst; [contradiction|reflexivity| |]; rewrite K in M'; discriminate. }
    apply multipart_not in M.
    destruct (String.eqb_spec c "application/x-www-form-urlencoded") as [F|F].
    { split; [intros Q; injection Q as <-; constructor; exact F|].
      intros H. inversion H as [? K|? _ K|? K|? K]; subst; [contradiction|contradiction|reflexivity|discriminate]. }
    destruct (String.eqb_spec c "text/plain") as [P|P].
    { split; [intros Q; injection Q as <-; constructor; exact P|].
      intros H. inversion H as [? K|? _ K|? K|? K]; subst; [contradiction|contradiction|contradiction|reflexivity]. }
    split; [discriminate|]. intros H. inversion H as [? K|? _ K|? K|? K]; subst; contradiction.
  - rewrite <- json_not, <- multipart_not. destruct (isMediaTypeJson c); [split; [discriminate|intros [Q _]; discriminate]|].
    destruct (has_prefix c "multipart/"); [split; [discriminate|intros [_ [Q _]]; discriminate]|].
    destruct (String.eqb_spec c "application/x-www-form-urlencoded"); [split; [discriminate|intros [_ [_ [Q _]]]; contradiction]|].
    destruct (String.eqb_spec c "text/plain"); [split; [discriminate|intros [_ [_ [_ Q]]]; contradiction]|]. tauto.
Qed.
Lemma response_tag_same c : response_tag c = body_tag c.
Proof.
  unfold response_tag, body_tag. destruct (isMediaTypeJson c); [reflexivity|].
  destruct (String.eqb_spec c form) as [->|]; [reflexivity|]. destruct (has_prefix c "multipart/"); reflexivity.
Qed.
Lemma tag_json c t : tagged c t -> (String.eqb t "JSON" = true <-> t = "JSON").
Proof. intros _. apply String.eqb_eq. Qed.

Section Bodies.
Context {T E X : Type}.
Variable u : unicode.
Variable ref : T -> string.
Variable goSchema : option T -> list string -> outcome (goschema X).
Variable withForm : X -> X.
Notation body1 := (@body1 T E X u ref goSchema withForm).
Notation bodies := (@bodies T E X u ref goSchema withForm).
Notation defines := (@defines T E X u ref goSchema withForm).

Lemma defines_content op required cx b l : defines op required cx b l -> b_content b = fst cx.
Proof. intros H. destruct H; reflexivity. Qed.

(** The type of a schema, by the code. *)
Definition type_of (s : T) (own : string) : outcome string :=
  if isGoTypeReference (ref s)
  then wrapping ("error turning reference (" ++ ref s ++ ") into a Go type: ")%string (refPathToGoType u (ref s))
  else Ok own.
Lemma type_of_ok s own t : type_of s own = Ok t <-> stands_for u ref s own t.
Proof.
  unfold type_of, stands_for. destruct (isGoTypeReference (ref s)).
  - destruct (refPathToGoType u (ref s)); cbn; split; intros Q; try discriminate; exact Q.
  - split; [intros Q; injection Q as <-; reflexivity|intros ->; reflexivity].
Qed.

Lemma body1_ok op required c x : body_typed u ref goSchema op c x ->
  exists b l, body1 op required c x = Ok (b, l) /\ defines op required (c, x) b l.
Proof.
  intros Ty. unfold OpBodies.body1. destruct (body_tag_iff c) as [TS TN]. destruct (body_tag c) as [tag|] eqn:G.
  - assert (Tg : tagged c tag) by (apply TS; reflexivity). destruct (Ty tag Tg) as [s [[own rest] [S1 [S2 [t S3]]]]].
    rewrite S1, S2. cbn [wrapping bind g_ref g_rest]. cbn [g_ref] in S3. fold (type_of s own).
    rewrite (proj2 (type_of_ok s own t) S3). cbn [bind]. destruct (String.eqb_spec t "") as [->|N].
    + eexists. eexists. split; [reflexivity|]. cbn [andb]. eapply defines_own; try eassumption.
      * intros F. unfold formdata in F. rewrite F. reflexivity.
      * intros F. destruct (String.eqb_spec c form) as [Q|Q]; [contradiction|reflexivity].
      * apply String.eqb_eq.
    + eexists. eexists. split; [reflexivity|]. cbn [andb]. eapply defines_named; try eassumption. apply String.eqb_eq.
  - eexists. eexists. split; [reflexivity|]. constructor. apply TN. reflexivity.
Qed.

Lemma bodies_ok op required l : Forall (fun e => body_typed u ref goSchema op (fst e) (snd e)) l ->
  exists ds, bodies op required l = Ok (map fst ds, List.concat (map snd ds)) /\
    Forall2 (fun cx d => defines op required cx (fst d) (snd d)) l ds.
Proof.
  intros F. induction F as [|[c x] l H F [ds [IH1 IH2]]]; [exists []; split; [reflexivity|constructor]|].
  cbn [OpBodies.bodies fst snd] in *. destruct (body1_ok op required c x H) as [b [ts [E1 D]]]. rewrite E1. cbn [bind].
  rewrite IH1. cbn [bind fst snd]. exists ((b, ts) :: ds). split; [reflexivity|]. constructor; assumption.
Qed.

Lemma sorted_stays {A} (l : list (string * A)) : increasing (map fst l) -> by_key l = l.
Proof.
  intros H. apply (increasing_ext (by_key l) l); [apply by_key_increasing, increasing_nodup, H|exact H|]. intros x. apply by_key_in.
Qed.

Lemma bodies_exact op required cs : NoDup (map fst cs) -> (forall c x, In (c, x) cs -> body_typed u ref goSchema op c x) ->
  exists ws ds, Permutation ws cs /\ increasing (map fst ws) /\
    generateBodyDefinitions u ref goSchema withForm op (Some (required, cs)) = Ok (map fst ds, List.concat (map snd ds)) /\
    Forall2 (fun cx d => defines op required cx (fst d) (snd d)) ws ds.
Proof.
  intros N Ty. destruct (bodies_ok op required (by_key cs)) as [ds [H1 H2]].
  { apply Forall_forall. intros [c x] I. rewrite by_key_in in I. apply Ty, I. }
  exists (by_key cs), ds. split; [apply by_key_perm|]. split; [apply by_key_increasing, N|]. split; [|exact H2].
  unfold generateBodyDefinitions. rewrite H1. cbn [bind fst snd].
  assert (Q : map fst (map (fun b => (b_content b, b)) (map fst ds)) = map fst (by_key cs)).
  { clear - H2. induction H2 as [|cx d l ds H F IH]; [reflexivity|]. cbn [map fst]. rewrite IH, (defines_content _ _ _ _ _ H). reflexivity. }
  rewrite sorted_stays by (rewrite Q; apply by_key_increasing, N). rewrite map_map. cbn [snd]. rewrite map_id. reflexivity.
Qed.

(** *** Types of their own *)

Lemma tag_of_type op t t' : (op ++ t ++ "Body")%string = (op ++ t' ++ "Body")%string -> t = t'.
Proof.
  intros Q. assert (R : (t ++ "Body")%string = (t' ++ "Body")%string).
  { revert Q. clear. induction op as [|c op IH]; intros Q; [exact Q|]. cbn in Q. injection Q as Q. exact (IH Q). }
  exact (app_inj_r _ _ _ R).
Qed.
Lemma defines_type op required cx b l n g : defines op required cx b l -> In (n, g) l ->
  exists tag, tagged (fst cx) tag /\ n = (op ++ tag ++ "Body")%string.
Proof. intros H I. destruct H; try (destruct I; fail). destruct I as [I|[]]. injection I as <- _. exists tag. split; [assumption|reflexivity]. Qed.

Lemma types_once op required ws ds : increasing (map fst ws) ->
  Forall2 (fun cx d => defines op required cx (fst d) (snd d)) ws ds ->
  (forall c c' tag, In c (map fst ws) -> In c' (map fst ws) -> tagged c tag -> tagged c' tag -> c = c') ->
  NoDup (map fst (List.concat (map snd ds))).
Proof.
  intros I F. induction F as [|cx d ws ds H F IH]; intros U; [constructor|]. cbn [map List.concat fst increasing] in I |- *.
  destruct I as [I1 I2]. rewrite map_app.
  assert (R : NoDup (map fst (List.concat (map snd ds)))).
  { apply IH; [exact I2|]. intros c c' tag J J'. apply U; right; assumption. }
  assert (S1 : length (snd d) <= 1).
  { destruct H; cbn; lia. }
  destruct (snd d) as [|[n g] [|? ?]] eqn:Ed; cbn [map app fst]; [exact R| |cbn in S1; lia]. constructor; [|exact R].
  intros K. apply in_map_iff in K. destruct K as [[n' g'] [En K]]. cbn [fst] in En. subst n'.
  apply in_concat in K. destruct K as [l [K1 K2]]. apply in_map_iff in K1. destruct K1 as [d' [<- K1]].
  assert (W : exists cx', In cx' ws /\ defines op required cx' (fst d') (snd d')).
  { clear - F K1. induction F as [|x y l l' H F IH]; [destruct K1|]. destruct K1 as [<-|K1]; [exists x; split; [left; reflexivity|exact H]|].
    destruct (IH K1) as [z [J Q]]. exists z. split; [right; exact J|exact Q]. }
  destruct W as [cx' [J D']].
  destruct (defines_type _ _ _ _ _ n g H) as [t [T1 E1]]; [left; reflexivity|].
  destruct (defines_type _ _ _ _ _ _ _ D' K2) as [t' [T2 E2]].
  assert (t' = t) by (apply (tag_of_type op); congruence). subst t'.
  destruct (I1 (fst cx') (List.in_map fst _ _ J)) as [_ N]. apply N.
  apply (U _ _ t); [left; reflexivity|right; apply List.in_map, J|exact T1|exact T2].
Qed.

Lemma defines_suffix op required cx b l : defines op required cx b l -> b_tag b <> "" ->
  tagged (b_content b) (b_tag b) /\ suffix b = (if String.eqb (b_tag b) "JSON" then "" else "With" ++ b_tag b ++ "Body")%string.
Proof.
  intros H N. destruct H as [c x U|c x tag s own rest t d Tg S1 S2 S3 S4 D|c x tag s own rest rest' d Tg S1 S2 S3 S4 S5 D].
  - destruct (N eq_refl).
  - cbn [b_tag b_content]. split; [exact Tg|]. unfold suffix. cbn [b_default b_tag].
    destruct (String.eqb_spec tag "JSON") as [Q|Q]; destruct d; try reflexivity; [apply D in Q; discriminate|].
    destruct Q. apply D. reflexivity.
  - cbn [b_tag b_content]. split; [exact Tg|]. unfold suffix. cbn [b_default b_tag].
    destruct (String.eqb_spec tag "JSON") as [Q|Q]; destruct d; try reflexivity; [apply D in Q; discriminate|].
    destruct Q. apply D. reflexivity.
Qed.

Lemma suffixes_once op required ws ds : Forall2 (fun cx d => defines op required cx (fst d) (snd d)) ws ds ->
  (forall c c' tag, In c (map fst ws) -> In c' (map fst ws) -> tagged c tag -> tagged c' tag -> c = c') ->
  forall b b', In b (map fst ds) -> In b' (map fst ds) -> b_tag b <> "" -> b_tag b' <> "" -> suffix b = suffix b' ->
  b_content b = b_content b'.
Proof.
  intros F U b b' I I' N N' Q.
  assert (W : forall b, In b (map fst ds) -> exists cx l, In cx ws /\ defines op required cx b l).
  { clear - F. intros b I. apply in_map_iff in I. destruct I as [d [<- I]].
    induction F as [|x y l l' H F IH]; [destruct I|]. destruct I as [<-|I]; [exists x, (snd y); split; [left; reflexivity|exact H]|].
    destruct (IH I) as [z [m [J R]]]. exists z, m. split; [right; exact J|exact R]. }
  destruct (W b I) as [cx [l [J D]]]. destruct (W b' I') as [cx' [l' [J' D']]].
  destruct (defines_suffix _ _ _ _ _ D N) as [T1 S1]. destruct (defines_suffix _ _ _ _ _ D' N') as [T2 S2].
  rewrite S1, S2 in Q. assert (R : b_tag b = b_tag b').
  { destruct (String.eqb_spec (b_tag b) "JSON") as [E1|E1]; destruct (String.eqb_spec (b_tag b') "JSON") as [E2|E2]; try discriminate.
    - congruence.
    - cbn in Q. injection Q as Q. exact (app_inj_r _ _ _ Q). }
  rewrite <- R in T2. apply (U _ _ (b_tag b)); [| |exact T1|exact T2].
  - rewrite (defines_content _ _ _ _ _ D). apply List.in_map, J.
  - rewrite (defines_content _ _ _ _ _ D'). apply List.in_map, J'.
Qed.

Lemma bodies_apart op required (cs : list (string * content T E)) defs types : NoDup (map fst cs) ->
  (forall c x, In (c, x) cs -> body_typed u ref goSchema op c x) ->
  (forall c c' tag, In c (map fst cs) -> In c' (map fst cs) -> tagged c tag -> tagged c' tag -> c = c') ->
  generateBodyDefinitions u ref goSchema withForm op (Some (required, cs)) = Ok (defs, types) ->
  NoDup (map fst types) /\
  forall b b', In b defs -> In b' defs -> b_tag b <> "" -> b_tag b' <> "" -> suffix b = suffix b' -> b_content b = b_content b'.
Proof.
  intros N Ty U Q. destruct (bodies_exact op required cs N Ty) as [ws [ds [P [I [G F]]]]]. rewrite G in Q. injection Q as <- <-.
  assert (U' : forall c c' tag, In c (map fst ws) -> In c' (map fst ws) -> tagged c tag -> tagged c' tag -> c = c').
  { intros c c' tag K K'. apply U.
    - apply (Permutation_in _ (Permutation_map fst P)), K.
    - apply (Permutation_in _ (Permutation_map fst P)), K'. }
  split; [eapply types_once; eassumption|eapply suffixes_once; eassumption].
Qed.

(** *** What goes wrong *)

Hypothesis ends : forall s p, settled (goSchema s p).

Definition body_failure (op c : string) (x : content T E) (e : err) : Prop :=
  exists tag, tagged c tag /\
    ((exists e0, goSchema (co_schema x) [(op ++ tag ++ "Body")%string] = Err e0 /\
        e = mkErr (e_marks e0) ("error generating request body definition: " ++ e_text e0)%string) \/
     (exists s e0, co_schema x = Some s /\ isGoTypeReference (ref s) = true /\ refPathToGoType u (ref s) = Err e0 /\
        e = mkErr (e_marks e0) ("error turning reference (" ++ ref s ++ ") into a Go type: " ++ e_text e0)%string)).

Lemma body1_total op required c x :
  (exists r, body1 op required c x = Ok r) \/
  (body1 op required c x = Panic /\ co_schema x = None /\ exists tag, tagged c tag) \/
  (exists e, body1 op required c x = Err e /\ body_failure op c x e).
Proof.
  unfold OpBodies.body1. destruct (body_tag_iff c) as [TS TN]. destruct (body_tag c) as [tag|] eqn:G; [|left; eauto].
  assert (Tg : tagged c tag) by (apply TS; reflexivity).
  destruct (ends (co_schema x) [(op ++ tag ++ "Body")%string]) as [N1 N2].
  destruct (goSchema (co_schema x) [(op ++ tag ++ "Body")%string]) as [[own rest]|e| |] eqn:Q; try contradiction; cbn [wrapping bind].
  - destruct (co_schema x) as [s|] eqn:Sx; [|right; left; eauto].
    destruct (isGoTypeReference (ref s)) eqn:R.
    + destruct (ref_settled u (ref s)) as [[t Q']|[e Q']]; rewrite Q'; cbn [wrapping bind].
      * left. destruct (String.eqb t ""); eauto.
      * right. right. eexists. split; [reflexivity|]. exists tag. split; [exact Tg|]. right. exists s, e.
        rewrite Sx. repeat split; try assumption. f_equal. rewrite !str_app_assoc. reflexivity.
    + cbn [bind]. left. destruct (String.eqb _ ""); eauto.
  - right. right. eexists. split; [reflexivity|]. exists tag. split; [exact Tg|]. left. exists e. auto.
Qed.

Lemma bodies_total op required l :
  (exists r, bodies op required l = Ok r) \/
  (bodies op required l = Panic /\ exists c x tag, In (c, x) l /\ co_schema x = None /\ tagged c tag) \/
  (exists e, bodies op required l = Err e /\ exists c x, In (c, x) l /\ body_failure op c x e).
Proof.
  induction l as [|[c x] l IH]; [left; eexists; reflexivity|]. cbn [OpBodies.bodies].
  destruct (body1_total op required c x) as [[r Q]|[[Q [N [t G]]]|[e [Q F]]]]; rewrite Q; cbn [bind].
  - destruct IH as [[r' IH]|[[IH [c' [x' [t [I R]]]]]|[e [IH [c' [x' [I R]]]]]]]; rewrite IH; cbn [bind].
    + left. eauto.
    + right. left. split; [reflexivity|]. exists c', x', t. split; [right; exact I|exact R].
    + right. right. exists e. split; [reflexivity|]. exists c', x'. split; [right; exact I|exact R].
  - right. left. split; [reflexivity|]. exists c, x, t. split; [left; reflexivity|auto].
  - right. right. exists e. split; [reflexivity|]. exists c, x. split; [left; reflexivity|exact F].
Qed.

Lemma bodies_outcome op body :
  (exists r, generateBodyDefinitions (E:=E) u ref goSchema withForm op body = Ok r) \/
  (generateBodyDefinitions (E:=E) u ref goSchema withForm op body = Panic /\
     exists q cs c x tag, body = Some (q, cs) /\ In (c, x) cs /\ co_schema x = None /\ tagged c tag) \/
  (exists e, generateBodyDefinitions (E:=E) u ref goSchema withForm op body = Err e /\
     exists q cs c x, body = Some (q, cs) /\ In (c, x) cs /\ body_failure op c x e).
Proof.
  unfold generateBodyDefinitions. destruct body as [[q cs]|]; [|left; eauto].
  destruct (bodies_total op q (by_key cs)) as [[r Q]|[[Q [c [x [t [I R]]]]]|[e [Q [c [x [I R]]]]]]]; rewrite Q; cbn [bind].
  - left. eauto.
  - right. left. split; [reflexivity|]. rewrite by_key_in in I. exists q, cs, c, x, t. auto.
  - right. right. exists e. split; [reflexivity|]. rewrite by_key_in in I. exists q, cs, c, x. auto.
Qed.

(** *** Responses *)

Notation response_ref := (response_ref T E).
Lemma every_ok {A B} (f : string -> A -> outcome B) (R : string * A -> B -> Prop) :
  (forall k a b, f k a = Ok b -> R (k, a) b) -> forall l bs, every f l = Ok bs -> Forall2 R l bs.
Proof.
  intros H l. induction l as [|[k a] l IH]; intros bs Q; cbn [every] in Q; [injection Q as <-; constructor|].
  destruct (f k a) as [b| | |] eqn:F; cbn [bind] in Q; try discriminate.
  destruct (every f l) as [bs'| | |] eqn:G; cbn [bind] in Q; try discriminate. injection Q as <-.
  constructor; [apply H, F|apply IH; reflexivity].
Qed.

Lemma content_exact op st c x d : response_content (T:=T) (E:=E) goSchema op st c x = Ok d -> content_of goSchema op st (c, x) d.
Proof.
  unfold response_content. rewrite response_tag_same. destruct (body_tag_iff c) as [TS TN]. destruct (body_tag c) as [t|] eqn:G.
  - intros Q. destruct (goSchema (co_schema x) _) as [g| | |] eqn:F; cbn [wrapping bind] in Q; try discriminate. injection Q as <-.
    constructor; [apply TS; reflexivity|exact F].
  - intros Q. injection Q as <-. constructor. apply TN. reflexivity.
Qed.
Lemma header_exact k s d : response_header u goSchema k s = Ok d -> header_of u goSchema (k, s) d.
Proof.
  unfold response_header. intros Q. destruct (goSchema s []) as [g| | |] eqn:F; cbn [wrapping bind] in Q; try discriminate.
  injection Q as <-. repeat split. exact F.
Qed.

Definition taken (w : string * response_ref) (seen seen' : list string) (r : string) : Prop :=
  (r = "" /\ seen' = seen /\ forall t, refers u w t -> In t seen) \/
  (refers u w r /\ ~ In r seen /\ seen' = r :: seen).

Lemma response1_ok op st rr seen d seen' : response1 u goSchema op st rr seen = Ok (d, seen') ->
  response_of u goSchema op (st, rr) d /\ taken (st, rr) seen seen' (rd_ref d).
Proof.
  unfold response1. destruct rr as [rf [re|]]; cbn [fst snd]; [|discriminate].
  destruct (every (response_content goSchema op st) (by_key (re_contents re))) as [cs| | |] eqn:C; cbn [bind]; try discriminate.
  destruct (every (response_header u goSchema) (by_key (re_headers re))) as [hs| | |] eqn:H; cbn [bind]; try discriminate.
  apply (every_ok _ (content_of goSchema op st)) in C; [|apply content_exact].
  apply (every_ok _ (header_of u goSchema)) in H; [|apply header_exact].
  assert (G : forall r, response_of u goSchema op (st, (rf, Some re))
    (mkResponse st (match re_description re with Some d => d | None => "" end) cs hs r)).
  { intros r. exists re. cbn. repeat split; try assumption.
    - intros t ->. reflexivity.
    - intros ->. reflexivity. }
  unfold taken, refers. cbn [fst snd].
  destruct (isGoTypeReference rf) eqn:R.
  - destruct (refPathToGoType u rf) as [t| | |] eqn:Q; cbn [wrapping bind]; try discriminate.
    destruct (stringInArray t seen) eqn:I.
    + intros K. injection K as <- <-. split; [apply G|]. left. cbn [rd_ref]. split; [reflexivity|]. split; [reflexivity|].
      intros t' [_ K]. injection K as <-. apply in_array, I.
    + intros K. injection K as <- <-. split; [apply G|]. right. cbn [rd_ref]. split; [auto|]. split; [|reflexivity].
      intros K. apply in_array in K. congruence.
  - intros K. injection K as <- <-. split; [apply G|]. left. split; [reflexivity|]. split; [reflexivity|]. intros t [K _]. discriminate.
Qed.

(** References taken so far are those of the responses before. *)
Lemma responses_ok op (l : list (string * option response_ref)) : forall seen ds, response_list u goSchema op l seen = Ok ds ->
  Forall2 (response_of u goSchema op) (present l) ds /\
  forall pre w post dpre d dpost, present l = pre ++ w :: post -> ds = dpre ++ d :: dpost -> length pre = length dpre ->
    forall t, t <> "" -> (rd_ref d = t <-> refers u w t /\ ~ In t seen /\ forall w', In w' pre -> ~ refers u w' t).
Proof.
  induction l as [|[st [rr|]] l IH]; intros seen ds Q; cbn [response_list] in Q.
  - injection Q as <-. split; [constructor|]. intros [|? ?]; discriminate.
  - destruct (response1 u goSchema op st rr seen) as [[d seen']| | |] eqn:Q1; cbn [bind fst snd] in Q; try discriminate.
    destruct (response_list u goSchema op l seen') as [ds'| | |] eqn:Q2; cbn [bind] in Q; try discriminate. injection Q as <-.
    destruct (response1_ok _ _ _ _ _ _ Q1) as [G Tk]. destruct (IH _ _ Q2) as [F R]. clear IH.
    change (present ((st, Some rr) :: l)) with ((st, rr) :: present l). split; [constructor; assumption|].
    intros pre w post dpre d0 dpost Ep Ed Le t Nt.
    destruct pre as [|p pre]; destruct dpre as [|dp dpre]; try discriminate.
    + injection Ep as <- _. injection Ed as <- _. destruct Tk as [[K1 [_ K3]]|[K1 [K2 _]]].
      * rewrite K1. split; [intros Q; symmetry in Q; contradiction|]. intros [K [K' _]]. destruct (K' (K3 t K)).
      * split.
        -- intros <-. split; [exact K1|]. split; [exact K2|intros w' []].
        -- intros [[_ K] _]. destruct K1 as [_ K1]. rewrite K1 in K. injection K as K. exact K.
    + injection Ep as <- Ep. injection Ed as <- Ed. injection Le as Le.
      rewrite (R pre w post dpre d0 dpost Ep Ed Le t Nt). destruct Tk as [[K1 [-> K3]]|[K1 [K2 ->]]].
      * split.
        -- intros [H1 [H2 H3]]. split; [exact H1|]. split; [exact H2|]. intros w' [<-|I]; [|apply H3, I]. intros K. apply H2, K3, K.
        -- intros [H1 [H2 H3]]. split; [exact H1|]. split; [exact H2|]. intros w' I. apply H3. right. exact I.
      * split.
        -- intros [H1 [H2 H3]]. split; [exact H1|]. split; [intros K; apply H2; right; exact K|].
           intros w' [<-|I]; [|apply H3, I]. intros [_ K]. destruct K1 as [_ K1]. rewrite K1 in K. injection K as K. apply H2. left. exact K.
        -- intros [H1 [H2 H3]]. split; [exact H1|]. split; [|intros w' I; apply H3; right; exact I].
           intros [K|K]; [|contradiction]. apply (H3 (st, rr)); [left; reflexivity|]. rewrite <- K. exact K1.
  - change (present ((st, None) :: l)) with (present l). apply IH, Q.
Qed.

Lemma present_increasing (l : list (string * option response_ref)) : increasing (map fst l) -> increasing (map fst (present l)).
Proof.
  induction l as [|[st [rr|]] l IH]; intros H; [exact H| |].
  - cbn [map fst increasing] in H. destruct H as [H1 H2]. change (present ((st, Some rr) :: l)) with ((st, rr) :: present l).
    cbn [map fst increasing]. split; [|apply IH, H2]. intros b I. apply H1. apply in_map_iff in I. destruct I as [w [<- I]].
    unfold present in I. apply in_flat_map in I. destruct I as [[k [v|]] [I J]]; cbn [snd fst] in J; [|destruct J].
    destruct J as [<-|[]]. exact (List.in_map fst _ _ I).
  - cbn [map fst increasing] in H. apply IH, H.
Qed.

Lemma responses_exact op (rs : list (string * option response_ref)) ds : NoDup (map fst rs) ->
  generateResponseDefinitions u goSchema op rs = Ok ds ->
  exists ws, Permutation ws (present rs) /\ increasing (map fst ws) /\ Forall2 (response_of u goSchema op) ws ds /\
    forall pre w post dpre d dpost, ws = pre ++ w :: post -> ds = dpre ++ d :: dpost -> length pre = length dpre ->
      forall t, t <> "" -> (rd_ref d = t <-> refers u w t /\ forall w', In w' pre -> ~ refers u w' t).
Proof.
  intros N Q. destruct (responses_ok op (by_key rs) [] ds Q) as [F R]. exists (present (by_key rs)).
  split; [apply Permutation_flat_map, by_key_perm|]. split; [apply present_increasing, by_key_increasing, N|]. split; [exact F|].
  intros pre w post dpre d dpost E1 E2 E3 t Nt. rewrite (R _ _ _ _ _ _ E1 E2 E3 t Nt). split; [tauto|].
  intros [H1 H2]. split; [exact H1|]. split; [intros []|exact H2].
Qed.

Lemma refs_once op (rs : list (string * option response_ref)) ds a d b d' c : NoDup (map fst rs) ->
  generateResponseDefinitions u goSchema op rs = Ok ds -> ds = a ++ d :: b ++ d' :: c -> rd_ref d <> "" -> rd_ref d' <> rd_ref d.
Proof.
  intros N Q Ed Nd E2. destruct (responses_exact op rs ds N Q) as [ws [_ [_ [F R]]]].
  pose proof F as F'. rewrite Ed in F'. apply Forall2_app_inv_r in F'. destruct F' as [wa [wr [Fa [Fr Ew]]]].
  inversion Fr as [|w ? wr' ? Fw Fr' X1 X2]; subst. apply Forall2_app_inv_r in Fr'. destruct Fr' as [wb [wr2 [Fb [Fr2 ->]]]].
  inversion Fr2 as [|w' ? wc ? Fw' Fc X1 X2]; subst.
  assert (G1 : refers u w (rd_ref d)).
  { apply (R wa w (wb ++ w' :: wc) a d (b ++ d' :: c) eq_refl eq_refl (same_length _ _ _ Fa) (rd_ref d) Nd). reflexivity. }
  assert (G2 : forall x, In x (wa ++ w :: wb) -> ~ refers u x (rd_ref d)).
  { apply (R (wa ++ w :: wb) w' wc (a ++ d :: b) d' c); [rewrite <- app_assoc; reflexivity|rewrite <- app_assoc; reflexivity| |exact Nd|exact E2].
    rewrite !app_length. cbn. rewrite (same_length _ _ _ Fa), (same_length _ _ _ Fb). reflexivity. }
  apply (G2 w); [apply in_or_app; right; left; reflexivity|exact G1].
Qed.

Definition response_failure (op st : string) (rr : response_ref) (e : err) : Prop :=
  exists re, snd rr = Some re /\
  ((exists c x tag e0, In (c, x) (re_contents re) /\ tagged c tag /\
      goSchema (co_schema x) [(op ++ st ++ tag ++ "Response")%string] = Err e0 /\
      e = mkErr (e_marks e0) ("error generating request body definition: " ++ e_text e0)%string) \/
   (exists h s e0, In (h, s) (re_headers re) /\ goSchema s [] = Err e0 /\
      e = mkErr (e_marks e0) ("error generating response header definition: " ++ e_text e0)%string) \/
   (exists e0, isGoTypeReference (fst rr) = true /\ refPathToGoType u (fst rr) = Err e0 /\
      e = mkErr (e_marks e0) ("error turning reference (" ++ fst rr ++ ") into a Go type: " ++ e_text e0)%string)).

Lemma every_total {A B} (f : string -> A -> outcome B) (P : string -> A -> err -> Prop) :
  (forall k a, (exists b, f k a = Ok b) \/ exists e, f k a = Err e /\ P k a e) ->
  forall l, (exists bs, every f l = Ok bs) \/ exists e k a, every f l = Err e /\ In (k, a) l /\ P k a e.
Proof.
  intros H l. induction l as [|[k a] l IH]; [left; eexists; reflexivity|]. cbn [every].
  destruct (H k a) as [[b Q]|[e [Q R]]]; rewrite Q; cbn [bind].
  - destruct IH as [[bs IH]|[e [k' [a' [IH [I R]]]]]]; rewrite IH; cbn [bind]; [left; eauto|].
    right. exists e, k', a'. split; [reflexivity|]. split; [right; exact I|exact R].
  - right. exists e, k, a. split; [reflexivity|]. split; [left; reflexivity|exact R].
Qed.

Lemma response1_total op st rr seen :
  (exists r, response1 u goSchema op st rr seen = Ok r) \/
  (response1 u goSchema op st rr seen = Panic /\ snd rr = None) \/
  (exists e, response1 u goSchema op st rr seen = Err e /\ response_failure op st rr e).
Proof.
  unfold response1, response_failure. destruct rr as [rf [re|]]; cbn [fst snd]; [|right; left; auto].
  destruct (every_total (response_content goSchema op st) (fun c (x : content T E) e => exists tag e0, tagged c tag /\
      goSchema (co_schema x) [(op ++ st ++ tag ++ "Response")%string] = Err e0 /\
      e = mkErr (e_marks e0) ("error generating request body definition: " ++ e_text e0)%string)) with (l := by_key (re_contents re))
    as [[cs C]|[e [c [x [C [I [tag [e0 R]]]]]]]].
  { intros c x. unfold response_content. rewrite response_tag_same. destruct (body_tag_iff c) as [TS TN].
    destruct (body_tag c) as [t|] eqn:G; [|left; eauto]. destruct (ends (co_schema x) [(op ++ st ++ t ++ "Response")%string]) as [N1 N2].
    destruct (goSchema (co_schema x) _) as [g|e| |] eqn:F; try contradiction; cbn [wrapping bind]; [left; eauto|].
    right. eexists. split; [reflexivity|]. exists t, e. split; [apply TS; reflexivity|]. auto. }
  2:{ rewrite C. cbn [bind]. right. right. exists e. split; [reflexivity|]. exists re. split; [reflexivity|]. left.
      rewrite by_key_in in I. exists c, x, tag, e0. tauto. }
  rewrite C. cbn [bind].
  destruct (every_total (response_header u goSchema) (fun h s e => exists e0, goSchema s [] = Err e0 /\
      e = mkErr (e_marks e0) ("error generating response header definition: " ++ e_text e0)%string)) with (l := by_key (re_headers re))
    as [[hs H]|[e [h [s [H [I [e0 R]]]]]]].
  { intros h s. unfold response_header. destruct (ends s []) as [N1 N2].
    destruct (goSchema s []) as [g|e| |] eqn:F; try contradiction; cbn [wrapping bind]; [left; eauto|].
    right. eexists. split; [reflexivity|]. exists e. auto. }
  2:{ rewrite H. cbn [bind]. right. right. exists e. split; [reflexivity|]. exists re. split; [reflexivity|]. right. left.
      rewrite by_key_in in I. exists h, s, e0. tauto. }
  rewrite H. cbn [bind]. destruct (isGoTypeReference rf) eqn:R; [|left; eauto].
  destruct (ref_settled u rf) as [[t Q]|[e Q]]; rewrite Q; cbn [wrapping bind]; [left; destruct (stringInArray t seen); eauto|].
  right. right. eexists. split; [reflexivity|]. exists re. split; [reflexivity|]. right. right. exists e.
  repeat split; try assumption. f_equal. rewrite !str_app_assoc. reflexivity.
Qed.

Lemma response_list_total op (l : list (string * option response_ref)) : forall seen,
  (exists r, response_list u goSchema op l seen = Ok r) \/
  (response_list u goSchema op l seen = Panic /\ exists st rf, In (st, Some (rf, None)) l) \/
  (exists e, response_list u goSchema op l seen = Err e /\ exists st rr, In (st, Some rr) l /\ response_failure op st rr e).
Proof.
  induction l as [|[st [rr|]] l IH]; intros seen; cbn [response_list]; [left; eauto| |].
  - destruct (response1_total op st rr seen) as [[[d seen'] Q]|[[Q N]|[e [Q R]]]]; rewrite Q; cbn [bind fst snd].
    + destruct (IH seen') as [[r H]|[[H [s [f I]]]|[e [H [s [f [I R]]]]]]]; rewrite H; cbn [bind].
      * left. eauto.
      * right. left. split; [reflexivity|]. exists s, f. right. exact I.
      * right. right. exists e. split; [reflexivity|]. exists s, f. split; [right; exact I|exact R].
    + right. left. split; [reflexivity|]. destruct rr as [f v]. cbn in N. subst v. exists st, f. left. reflexivity.
    + right. right. exists e. split; [reflexivity|]. exists st, rr. split; [left; reflexivity|exact R].
  - destruct (IH seen) as [[r H]|[[H [s [f I]]]|[e [H [s [f [I R]]]]]]]; rewrite H.
    + left. eauto.
    + right. left. split; [reflexivity|]. exists s, f. right. exact I.
    + right. right. exists e. split; [reflexivity|]. exists s, f. split; [right; exact I|exact R].
Qed.

Lemma responses_outcome op (rs : list (string * option response_ref)) :
  (exists r, generateResponseDefinitions u goSchema op rs = Ok r) \/
  (generateResponseDefinitions u goSchema op rs = Panic /\ exists st rf, In (st, Some (rf, None)) rs) \/
  (exists e, generateResponseDefinitions u goSchema op rs = Err e /\ exists st rr, In (st, Some rr) rs /\ response_failure op st rr e).
Proof.
  unfold generateResponseDefinitions. destruct (response_list_total op (by_key rs) []) as [H|[[H [s [f I]]]|[e [H [s [f [I R]]]]]]].
  - left. exact H.
  - right. left. rewrite by_key_in in I. eauto.
  - right. right. rewrite by_key_in in I. eauto 6.
Qed.
End Bodies.
