(** What is left after pruning. *)
From Verif Require Import Prelude Prune.
Local Open Scope string_scope.
Local Open Scope list_scope.

(** *** Specification *)

(** The schemas written directly inside a schema. *)
Inductive child : scm -> sref -> Prop :=
| ch_one r a b c n i p d m : In (Some r) a -> child (Scm a b c n i p d m) r
| ch_any r a b c n i p d m : In (Some r) b -> child (Scm a b c n i p d m) r
| ch_all r a b c n i p d m : In (Some r) c -> child (Scm a b c n i p d m) r
| ch_not r a b c i p d m : child (Scm a b c (Some r) i p d m) r
| ch_items r a b c n p d m : child (Scm a b c n (Some r) p d m) r
| ch_prop r l a b c n i p d m : In (l, Some r) p -> child (Scm a b c n i p d m) r
| ch_add r a b c n i p m : child (Scm a b c n i p (Some r) m) r.

Section At.
(** With [all], the places that the walk passes over count too: the mapping of a
    discriminator, and the examples and the content of a header. *)
Variable all : bool.

(** The reference [x] is written at or below the node. *)
Inductive at_s (x : string) : sref -> Prop :=
| as_here v : x <> "" -> at_s x (SRef x v)
| as_below s r : child s r -> at_s x r -> at_s x (SRef "" (Some s))
| as_mapping l a b c n i p d m : all = true -> In (l, x) m -> at_s x (SRef "" (Some (Scm a b c n i p d m))).

Definition at_l (x : string) (r : lref) : Prop := x <> "" /\ l_ref r = x.
Definition at_o {A} (x : string) (P : A -> Prop) (r : oref A) : Prop :=
  (x <> "" /\ o_ref r = x) \/ (o_ref r = "" /\ exists a, o_value r = Some a /\ P a).
Definition at_schema (x : string) (o : option sref) : Prop := exists r, o = Some r /\ at_s x r.
Definition at_examples (x : string) (es : list (string * option lref)) : Prop :=
  exists l e, In (l, Some e) es /\ at_l x e.
Definition at_content (x : string) (c : list (string * option media)) : Prop :=
  exists l m, In (l, Some m) c /\ (at_schema x (m_schema m) \/ at_examples x (m_examples m)).
Definition at_param (x : string) : oref param -> Prop :=
  at_o x (fun p => at_schema x (p_schema p) \/ at_examples x (p_examples p) \/ at_content x (p_content p)).
Definition at_header (x : string) : oref param -> Prop :=
  at_o x (fun p => at_schema x (p_schema p) \/
                   (all = true /\ (at_examples x (p_examples p) \/ at_content x (p_content p)))).
Definition at_body (x : string) : oref body -> Prop := at_o x (at_content x).
Definition at_response (x : string) : oref response -> Prop :=
  at_o x (fun p => (exists l h, In (l, Some h) (s_headers p) /\ at_header x h) \/ at_content x (s_content p) \/
                   at_examples x (s_links p)).

Inductive at_oper (x : string) : oper -> Prop :=
| ao_param r ps rb rs cs : In (Some r) ps -> at_param x r -> at_oper x (Oper ps rb rs cs)
| ao_body r ps rs cs : at_body x r -> at_oper x (Oper ps (Some r) rs cs)
| ao_response l r ps rb rs cs : In (l, Some r) rs -> at_response x r -> at_oper x (Oper ps rb rs cs)
| ao_callback l c ps rb rs cs : In (l, Some c) cs -> at_callback x c -> at_oper x (Oper ps rb rs cs)
with at_callback (x : string) : cref -> Prop :=
| ac_here v : x <> "" -> at_callback x (CRef x v)
| ac_item l i is : In (l, i) is -> at_item x i -> at_callback x (CRef "" (Some is))
with at_item (x : string) : item -> Prop :=
| ai_param r ps os : In (Some r) ps -> at_param x r -> at_item x (Item ps os)
| ai_oper o ps os : In (Some o) os -> at_oper x o -> at_item x (Item ps os).

Definition path_at (d : swagger) (x : string) : Prop := exists l i, In (l, i) (d_paths d) /\ at_item x i.
End At.

(** A component is known by its kind and its name. *)
Inductive kind := KSchema | KParam | KHeader | KBody | KResponse | KSecurity | KExample | KLink | KCallback.
Definition kind_name (k : kind) : string :=
  match k with
  | KSchema => "schemas" | KParam => "parameters" | KHeader => "headers" | KBody => "requestBodies"
  | KResponse => "responses" | KSecurity => "securitySchemes" | KExample => "examples"
  | KLink => "links" | KCallback => "callbacks"
  end.
Definition addr (k : kind) (n : string) : string := "#/components/" ++ kind_name k ++ "/" ++ n.

Definition in_map {A} (n : string) (P : A -> Prop) (m : list (string * option A)) : Prop :=
  exists r, In (n, Some r) m /\ P r.

(** [x] is written in the definition of a component. *)
Definition comp_at (all : bool) (d : swagger) (k : kind) (n x : string) : Prop :=
  exists c, d_comps d = Some c /\
  match k with
  | KSchema => in_map n (at_s all x) (c_schemas c)
  | KParam => in_map n (at_param all x) (c_params c)
  | KHeader => in_map n (at_header all x) (c_headers c)
  | KBody => in_map n (at_body all x) (c_bodies c)
  | KResponse => in_map n (at_response all x) (c_responses c)
  | KSecurity => in_map n (at_l x) (c_security c)
  | KExample => in_map n (at_l x) (c_examples c)
  | KLink => in_map n (at_l x) (c_links c)
  | KCallback => in_map n (at_callback all x) (c_callbacks c)
  end.

Definition defines (d : swagger) (k : kind) (n : string) : Prop :=
  exists c, d_comps d = Some c /\
  match k with
  | KSchema => In n (map fst (c_schemas c))
  | KParam => In n (map fst (c_params c))
  | KHeader => In n (map fst (c_headers c))
  | KBody => In n (map fst (c_bodies c))
  | KResponse => In n (map fst (c_responses c))
  | KSecurity => In n (map fst (c_security c))
  | KExample => In n (map fst (c_examples c))
  | KLink => In n (map fst (c_links c))
  | KCallback => In n (map fst (c_callbacks c))
  end.

(** The document with only some of its components. *)
Definition restrict (keep : kind -> string -> bool) (d : swagger) : swagger :=
  mkSwagger (d_paths d)
    match d_comps d with
    | None => None
    | Some c => Some (mkComps
        (filter (fun e => keep KSchema (fst e)) (c_schemas c))
        (filter (fun e => keep KParam (fst e)) (c_params c))
        (filter (fun e => keep KHeader (fst e)) (c_headers c))
        (filter (fun e => keep KBody (fst e)) (c_bodies c))
        (filter (fun e => keep KResponse (fst e)) (c_responses c))
        (filter (fun e => keep KSecurity (fst e)) (c_security c))
        (filter (fun e => keep KExample (fst e)) (c_examples c))
        (filter (fun e => keep KLink (fst e)) (c_links c))
        (filter (fun e => keep KCallback (fst e)) (c_callbacks c)))
    end.

(** Every component in the set, security schemes aside, is referred to from a path
    or from the definition of one in the set. *)
Definition supported (d : swagger) (P : kind -> string -> Prop) : Prop :=
  forall k n, P k n -> k <> KSecurity ->
    path_at false d (addr k n) \/ exists k' n', P k' n' /\ comp_at false d k' n' (addr k n).

(** Security schemes are used, and what is referred to from a path or from the
    definition of something used. *)
Inductive used (d : swagger) : kind -> string -> Prop :=
| us_security n : used d KSecurity n
| us_path k n : path_at false d (addr k n) -> used d k n
| us_comp k n k' n' : used d k' n' -> comp_at false d k' n' (addr k n) -> used d k n.

(** *** The walk *)
Lemma in_on {A} (f : A -> list string) x o : In x (on f o) <-> exists a, o = Some a /\ In x (f a).
Proof.
  destruct o as [a|]; cbn; split; try tauto.
  - eauto.
  - intros [b [E H]]. congruence.
  - intros [b [E _]]. discriminate.
Qed.

Lemma in_on_list {A} (f : A -> list string) x l :
  In x (flat_map (on f) l) <-> exists a, In (Some a) l /\ In x (f a).
Proof.
  rewrite in_flat_map. split.
  - intros [o [I H]]. apply in_on in H as [a [-> H]]. eauto.
  - intros [a [I H]]. exists (Some a). split; [exact I|]. exact H.
Qed.

Lemma in_on_map {A B} (f : A -> list string) x (m : list (B * option A)) :
  In x (flat_map (fun e => on f (snd e)) m) <-> exists l a, In (l, Some a) m /\ In x (f a).
Proof.
  rewrite in_flat_map. split.
  - intros [[l o] [I H]]. apply in_on in H as [a [E H]]. cbn in E. subst. eauto.
  - intros [l [a [I H]]]. exists (l, Some a). split; [exact I|]. exact H.
Qed.

Lemma sref_ind' (P : sref -> Prop) :
  (forall ref v, (forall s r, v = Some s -> child s r -> P r) -> P (SRef ref v)) -> forall r, P r.
Proof.
  intros H. fix IH 1. intros [ref v]. apply H. intros s r E C.
  destruct v as [[a b c n i p d m]|]; [|discriminate]. injection E as <-.
  assert (Ha : forall r, In (Some r) a -> P r).
  { clear C r. induction a as [|[r0|] a IHa]; intros r I; [contradiction| |].
    - destruct I as [I|I]; [injection I as <-; apply IH|apply IHa; exact I].
    - destruct I as [I|I]; [discriminate|apply IHa; exact I]. }
  assert (Hb : forall r, In (Some r) b -> P r).
  { clear C r. induction b as [|[r0|] b IHa]; intros r I; [contradiction| |].
    - destruct I as [I|I]; [injection I as <-; apply IH|apply IHa; exact I].
    - destruct I as [I|I]; [discriminate|apply IHa; exact I]. }
  assert (Hc : forall r, In (Some r) c -> P r).
  { clear C r. induction c as [|[r0|] c IHa]; intros r I; [contradiction| |].
    - destruct I as [I|I]; [injection I as <-; apply IH|apply IHa; exact I].
    - destruct I as [I|I]; [discriminate|apply IHa; exact I]. }
  assert (Hp : forall l r, In (l, Some r) p -> P r).
  { clear C r. induction p as [|[l0 [r0|]] p IHa]; intros l r I; [contradiction| |].
    - destruct I as [I|I]; [injection I as _ <-; apply IH|apply (IHa l); exact I].
    - destruct I as [I|I]; [discriminate|apply (IHa l); exact I]. }
  assert (Hn : forall r, n = Some r -> P r) by (destruct n as [r0|]; intros r1 E; [injection E as <-; apply IH|discriminate]).
  assert (Hi : forall r, i = Some r -> P r) by (destruct i as [r0|]; intros r1 E; [injection E as <-; apply IH|discriminate]).
  assert (Hd : forall r, d = Some r -> P r) by (destruct d as [r0|]; intros r1 E; [injection E as <-; apply IH|discriminate]).
  clear IH. inversion C; subst; eauto.
Qed.

Lemma walk_child s x : In x (walkSchema s) <-> exists r, child s r /\ In x (walkSchemaRef r).
Proof.
  destruct s as [a b c n i p d m]. cbn [walkSchema]. rewrite !in_app_iff, !in_on_list, !in_on, in_on_map. split.
  - intros [[r [I H]]|[[r [I H]]|[[r [I H]]|[[r [-> H]]|[[r [-> H]]|[[l [r [I H]]]|[r [-> H]]]]]]]];
      exists r; (split; [econstructor; eassumption|exact H]).
  - intros [r [C H]]. inversion C; subst; eauto 12.
Qed.

Lemma walk_s x r : In x (walkSchemaRef r) <-> at_s false x r.
Proof.
  split.
  - induction r as [ref v IH] using sref_ind'. cbn [walkSchemaRef].
    destruct (String.eqb_spec ref "") as [->|N]; cbn [negb].
    + destruct v as [s|]; [|contradiction]. intros H. apply walk_child in H as [r [C H]].
      apply (as_below _ _ s r); [exact C|]. exact (IH s r eq_refl C H).
    + intros [<-|[]]. apply as_here. exact N.
  - induction 1 as [v N|s r C _ IH|l a b c n i p d m K I]; [| |discriminate]; cbn [walkSchemaRef].
    + destruct (String.eqb_spec x "") as [E|_]; [contradiction|]. left. reflexivity.
    + cbn [String.eqb negb]. apply walk_child. eauto.
Qed.

Lemma walk_l x r : In x (walkLeaf r) <-> at_l x r.
Proof.
  unfold walkLeaf, at_l. destruct (String.eqb_spec (l_ref r) "") as [E|N]; cbn [negb].
  - split; [contradiction|]. intros [A B]. congruence.
  - split; [intros [<-|[]]; auto|]. intros [_ B]. left. exact B.
Qed.

Lemma walk_visit {A} x (f : A -> list string) (P : A -> Prop) (r : oref A) :
  (forall a, In x (f a) <-> P a) -> In x (visit (o_ref r) (o_value r) f) <-> at_o x P r.
Proof.
  intros H. unfold visit, at_o. destruct (String.eqb_spec (o_ref r) "") as [E|N]; cbn [negb].
  - rewrite in_on. split.
    + intros [a [Ea I]]. right. split; [exact E|]. exists a. split; [exact Ea|]. apply H. exact I.
    + intros [[A1 A2]|[_ [a [Ea I]]]]; [congruence|]. exists a. split; [exact Ea|]. apply H. exact I.
  - split.
    + intros [<-|[]]. left. auto.
    + intros [[_ B]|[B _]]; [left; exact B|contradiction].
Qed.

Lemma walk_schema x o : In x (on walkSchemaRef o) <-> at_schema false x o.
Proof.
  rewrite in_on. unfold at_schema.
  split; intros [r [E H]]; exists r; (split; [exact E|]); apply walk_s; exact H.
Qed.
Lemma walk_examples x es : In x (flat_map (fun e => on walkLeaf (snd e)) es) <-> at_examples x es.
Proof.
  rewrite in_on_map. unfold at_examples.
  split; intros [l [e [I H]]]; exists l, e; (split; [exact I|]); apply walk_l; exact H.
Qed.
Lemma walk_content x c : In x (walkContent c) <-> at_content false x c.
Proof.
  unfold walkContent, at_content. rewrite in_on_map. unfold walkMedia.
  split; intros [l [m [I H]]]; exists l, m; (split; [exact I|]).
  - rewrite in_app_iff, walk_schema, walk_examples in H. exact H.
  - rewrite in_app_iff, walk_schema, walk_examples. exact H.
Qed.
Lemma walk_param x r : In x (walkParameterRef r) <-> at_param false x r.
Proof. apply walk_visit. intros p. rewrite !in_app_iff, walk_schema, walk_examples, walk_content. reflexivity. Qed.
Lemma walk_header x r : In x (walkHeaderRef r) <-> at_header false x r.
Proof.
  apply walk_visit. intros p. rewrite walk_schema. split; [auto|].
  intros [H|[H _]]; [exact H|discriminate].
Qed.
Lemma walk_body x r : In x (walkRequestBodyRef r) <-> at_body false x r.
Proof. apply walk_visit. intros p. apply walk_content. Qed.
Lemma walk_response x r : In x (walkResponseRef r) <-> at_response false x r.
Proof.
  apply walk_visit. intros p. rewrite !in_app_iff, walk_content, walk_examples, in_on_map.
  split; (intros [[l [h [I H]]]|H]; [left; exists l, h; split; [exact I|apply walk_header; exact H]|right; exact H]).
Qed.

Lemma walk_oper_at : forall o x, In x (walkOperation o) -> at_oper false x o
with walk_callback_at : forall c x, In x (walkCallbackRef c) -> at_callback false x c
with walk_item_at : forall i x, In x (walkItem i) -> at_item false x i.
Proof.
  - intros [ps rb rs cs] x H. cbn [walkOperation] in H. rewrite !in_app_iff, in_on_list, in_on, !in_on_map in H.
    destruct H as [[r [I H]]|[[r [-> H]]|[[l [r [I H]]]|[l [c [I H]]]]]].
    + apply walk_param in H. eapply ao_param; eassumption.
    + apply walk_body in H. apply ao_body. exact H.
    + apply walk_response in H. eapply ao_response; eassumption.
    + assert (K : at_callback false x c).
      { clear - walk_callback_at I H. revert I. induction cs as [|[l0 [c0|]] cs IHc]; intros I; [contradiction| |].
        - destruct I as [I|I]; [|exact (IHc I)]. injection I as _ E. rewrite <- E in H. rewrite <- E.
          apply (walk_callback_at c0). exact H.
        - destruct I as [I|I]; [discriminate|exact (IHc I)]. }
      eapply ao_callback; eassumption.
  - intros [ref v] x H. cbn [walkCallbackRef] in H. destruct (String.eqb_spec ref "") as [->|N]; cbn [negb] in H.
    + destruct v as [is|]; [|contradiction]. apply in_flat_map in H as [[l i] [I H]]. cbn [snd] in H.
      apply (ac_item _ _ l i); [exact I|].
      clear - walk_item_at I H. revert I. induction is as [|[l0 i0] is IHi]; intros I; [contradiction|].
      destruct I as [I|I]; [|exact (IHi I)]. injection I as _ E. rewrite <- E in H. rewrite <- E.
      apply (walk_item_at i0). exact H.
    + destruct H as [<-|[]]. apply ac_here. exact N.
  - intros [ps os] x H. cbn [walkItem] in H. rewrite in_app_iff, !in_on_list in H. destruct H as [[r [I H]]|[o [I H]]].
    + apply walk_param in H. eapply ai_param; eassumption.
    + apply (ai_oper _ _ o); [exact I|].
      clear - walk_oper_at I H. revert I. induction os as [|[o0|] os IHo]; intros I; [contradiction| |].
      * destruct I as [I|I]; [|exact (IHo I)]. injection I as E. rewrite <- E in H. rewrite <- E.
        apply (walk_oper_at o0). exact H.
      * destruct I as [I|I]; [discriminate|exact (IHo I)].
Qed.

Scheme at_oper_ind' := Induction for at_oper Sort Prop
with at_callback_ind' := Induction for at_callback Sort Prop
with at_item_ind' := Induction for at_item Sort Prop.
Combined Scheme at_all_ind from at_oper_ind', at_callback_ind', at_item_ind'.

Lemma at_walk x :
  (forall o, at_oper false x o -> In x (walkOperation o)) /\
  (forall c, at_callback false x c -> In x (walkCallbackRef c)) /\
  (forall i, at_item false x i -> In x (walkItem i)).
Proof.
  apply (at_all_ind false x (fun o _ => In x (walkOperation o)) (fun c _ => In x (walkCallbackRef c))
           (fun i _ => In x (walkItem i))).
  - intros r ps rb rs cs I H. cbn [walkOperation]. rewrite in_app_iff. left. apply in_on_list. exists r.
    split; [exact I|]. apply walk_param. exact H.
  - intros r ps rs cs H. cbn [walkOperation]. rewrite !in_app_iff. right. left. apply walk_body. exact H.
  - intros l r ps rb rs cs I H. cbn [walkOperation]. rewrite !in_app_iff. right. right. left. apply in_on_map.
    exists l, r. split; [exact I|]. apply walk_response. exact H.
  - intros l c ps rb rs cs I _ IH. cbn [walkOperation]. rewrite !in_app_iff. do 3 right. apply in_on_map. eauto.
  - intros v N. cbn [walkCallbackRef]. destruct (String.eqb_spec x "") as [E|_]; [contradiction|]. left. reflexivity.
  - intros l i is I _ IH. cbn [walkCallbackRef String.eqb negb]. apply in_flat_map. exists (l, i). auto.
  - intros r ps os I H. cbn [walkItem]. rewrite in_app_iff. left. apply in_on_list. exists r.
    split; [exact I|]. apply walk_param. exact H.
  - intros o ps os I _ IH. cbn [walkItem]. rewrite in_app_iff. right. apply in_on_list. eauto.
Qed.

Lemma walk_callback x c : In x (walkCallbackRef c) <-> at_callback false x c.
Proof. split; [apply walk_callback_at|apply at_walk]. Qed.
Lemma walk_item x i : In x (walkItem i) <-> at_item false x i.
Proof. split; [apply walk_item_at|apply at_walk]. Qed.

Lemma walk_map {A} (f : A -> list string) (P : A -> Prop) x m : (forall a, In x (f a) <-> P a) ->
  In x (flat_map (fun e => on f (snd e)) m) <-> exists n, in_map n P m.
Proof.
  intros H. rewrite in_on_map. unfold in_map.
  split; intros [n [r [I K]]]; exists n, r; (split; [exact I|]); apply H; exact K.
Qed.

Lemma find_refs d x : In x (findComponentRefs d) <-> path_at false d x \/ exists k n, comp_at false d k n x.
Proof.
  unfold findComponentRefs. rewrite in_app_iff, in_flat_map.
  assert (E : In x (on walkComponents (d_comps d)) <-> exists k n, comp_at false d k n x).
  { unfold comp_at. rewrite in_on. split.
    - intros [c [Ec H]]. unfold walkComponents in H. rewrite !in_app_iff in H.
      rewrite (walk_map _ _ x _ (walk_s x)), (walk_map _ _ x _ (walk_param x)), (walk_map _ _ x _ (walk_header x)),
        (walk_map _ _ x _ (walk_body x)), (walk_map _ _ x _ (walk_response x)), !(walk_map _ _ x _ (walk_l x)),
        (walk_map _ _ x _ (walk_callback x)) in H.
      destruct H as [[n H]|[[n H]|[[n H]|[[n H]|[[n H]|[[n H]|[[n H]|[[n H]|[n H]]]]]]]]].
      + exists KSchema, n, c. auto.
      + exists KParam, n, c. auto.
      + exists KHeader, n, c. auto.
      + exists KBody, n, c. auto.
      + exists KResponse, n, c. auto.
      + exists KSecurity, n, c. auto.
      + exists KExample, n, c. auto.
      + exists KLink, n, c. auto.
      + exists KCallback, n, c. auto.
    - intros [k [n [c [Ec H]]]]. exists c. split; [exact Ec|]. unfold walkComponents. rewrite !in_app_iff.
      rewrite (walk_map _ _ x _ (walk_s x)), (walk_map _ _ x _ (walk_param x)), (walk_map _ _ x _ (walk_header x)),
        (walk_map _ _ x _ (walk_body x)), (walk_map _ _ x _ (walk_response x)), !(walk_map _ _ x _ (walk_l x)),
        (walk_map _ _ x _ (walk_callback x)).
      destruct k; eauto 12. }
  rewrite E. unfold path_at.
  split; (intros [H|H]; [left|right; exact H]).
  - destruct H as [[l i] [I H]]. exists l, i. split; [exact I|]. apply walk_item. exact H.
  - destruct H as [l [i [I H]]]. exists (l, i). split; [exact I|]. apply walk_item. exact H.
Qed.

(** *** One round *)
Lemma in_slice a l : stringInSlice a l = true <-> In a l.
Proof.
  induction l as [|b l IH]; cbn; [split; [discriminate|contradiction]|].
  destruct (String.eqb_spec b a) as [->|N]; [tauto|]. rewrite IH. split; [auto|]. intros [E|E]; [contradiction|exact E].
Qed.

Definition is_security (k : kind) : bool := match k with KSecurity => true | _ => false end.
Definition narrow (keep : kind -> string -> bool) (refs : list string) (k : kind) (n : string) : bool :=
  keep k n && (is_security k || stringInSlice (addr k n) refs).

Lemma filter_filter {A} (f g : A -> bool) l : filter f (filter g l) = filter (fun x => g x && f x) l.
Proof.
  induction l as [|a l IH]; [reflexivity|]. cbn. destruct (g a); cbn; [|exact IH].
  destruct (f a); cbn; rewrite IH; reflexivity.
Qed.
Lemma filter_same {A} (f g : A -> bool) l : (forall x, f x = g x) -> filter f l = filter g l.
Proof. intros H. induction l as [|a l IH]; [reflexivity|]. cbn. rewrite H, IH. reflexivity. Qed.
Lemma filter_true {A} (f : A -> bool) l : (forall x, f x = true) -> filter f l = l.
Proof. intros H. induction l as [|a l IH]; [reflexivity|]. cbn. rewrite H, IH. reflexivity. Qed.
Lemma filter_le {A} (f : A -> bool) l : length (filter f l) <= length l.
Proof. induction l as [|a l IH]; [reflexivity|]. cbn. destruct (f a); cbn; lia. Qed.
Lemma filter_full {A} (f : A -> bool) l : length l - length (filter f l) = 0 -> filter f l = l.
Proof.
  induction l as [|a l IH]; [reflexivity|]. cbn [filter]. pose proof (filter_le f l).
  destruct (f a); cbn [length]; intros E.
  - f_equal. apply IH. lia.
  - lia.
Qed.

Lemma restrict_all d : restrict (fun _ _ => true) d = d.
Proof.
  destruct d as [ps [c|]]; [|reflexivity]. unfold restrict. cbn. destruct c. cbn.
  rewrite !filter_true by reflexivity. reflexivity.
Qed.

Lemma sweep_keep {A} prefix refs keep k (m : list (string * A)) :
  (forall n, prefix ++ n = addr k n)%string -> is_security k = false ->
  exists j, sweep prefix refs (filter (fun e => keep k (fst e)) m) = (filter (fun e => narrow keep refs k (fst e)) m, j) /\
    length (filter (fun e => narrow keep refs k (fst e)) m) + j = length (filter (fun e => keep k (fst e)) m) /\
    (j = 0 -> filter (fun e => narrow keep refs k (fst e)) m = filter (fun e => keep k (fst e)) m).
Proof.
  intros Hp Hs. unfold sweep. cbv zeta.
  assert (E : filter (fun e => stringInSlice (prefix ++ fst e)%string refs) (filter (fun e => keep k (fst e)) m)
            = filter (fun e => narrow keep refs k (fst e)) m).
  { rewrite filter_filter. apply filter_same. intros x. unfold narrow. rewrite Hs, Hp. reflexivity. }
  eexists. split; [rewrite E; reflexivity|].
  pose proof (filter_le (fun e : string * A => stringInSlice (prefix ++ fst e)%string refs) (filter (fun e => keep k (fst e)) m)) as L.
  rewrite E in L. split; [lia|]. intros Z. rewrite <- E. apply filter_full. rewrite E. exact Z.
Qed.

Definition size (d : swagger) : nat :=
  match d_comps d with
  | None => 0
  | Some c => length (c_schemas c) + length (c_params c) + length (c_headers c) + length (c_bodies c) +
      length (c_responses c) + length (c_examples c) + length (c_links c) + length (c_callbacks c)
  end.

Lemma remove_restrict keep d refs : (forall n, keep KSecurity n = true) ->
  exists j, removeOrphanedComponents (restrict keep d) refs = (restrict (narrow keep refs) d, j) /\
    size (restrict (narrow keep refs) d) + j = size (restrict keep d) /\
    (j = 0 -> restrict (narrow keep refs) d = restrict keep d).
Proof.
  intros S. destruct d as [ps [c|]]; [|exists 0; repeat split]. destruct c as [s p h b r sec e k cb].
  unfold restrict, removeOrphanedComponents, size. cbn [d_comps d_paths c_schemas c_params c_headers c_bodies c_responses
    c_security c_examples c_links c_callbacks fst snd].
  destruct (sweep_keep "#/components/schemas/" refs keep KSchema s (fun _ => eq_refl) eq_refl) as [j1 [E1 [L1 Z1]]].
  destruct (sweep_keep "#/components/parameters/" refs keep KParam p (fun _ => eq_refl) eq_refl) as [j2 [E2 [L2 Z2]]].
  destruct (sweep_keep "#/components/requestBodies/" refs keep KBody b (fun _ => eq_refl) eq_refl) as [j3 [E3 [L3 Z3]]].
  destruct (sweep_keep "#/components/responses/" refs keep KResponse r (fun _ => eq_refl) eq_refl) as [j4 [E4 [L4 Z4]]].
  destruct (sweep_keep "#/components/headers/" refs keep KHeader h (fun _ => eq_refl) eq_refl) as [j5 [E5 [L5 Z5]]].
  destruct (sweep_keep "#/components/examples/" refs keep KExample e (fun _ => eq_refl) eq_refl) as [j6 [E6 [L6 Z6]]].
  destruct (sweep_keep "#/components/links/" refs keep KLink k (fun _ => eq_refl) eq_refl) as [j7 [E7 [L7 Z7]]].
  destruct (sweep_keep "#/components/callbacks/" refs keep KCallback cb (fun _ => eq_refl) eq_refl) as [j8 [E8 [L8 Z8]]].
  rewrite E1, E2, E3, E4, E5, E6, E7, E8.
  assert (Es : filter (fun x : string * option lref => keep KSecurity (fst x)) sec
             = filter (fun x => narrow keep refs KSecurity (fst x)) sec).
  { apply filter_same. intros x. unfold narrow. rewrite S. reflexivity. }
  eexists. rewrite Es. split; [reflexivity|]. split; [lia|]. intros Z.
  rewrite Z1, Z2, Z3, Z4, Z5, Z6, Z7, Z8 by lia. reflexivity.
Qed.

Lemma comp_restrict keep d k n x : comp_at false (restrict keep d) k n x <-> comp_at false d k n x /\ keep k n = true.
Proof.
  assert (M : forall (A : Type) (P : A -> Prop) m, in_map n P (filter (fun e => keep k (fst e)) m) <-> in_map n P m /\ keep k n = true).
  { intros A P m. unfold in_map. split.
    - intros [r [I H]]. apply filter_In in I as [I K]. split; [eauto|exact K].
    - intros [[r [I H]] K]. exists r. split; [apply filter_In; auto|exact H]. }
  unfold comp_at, restrict. cbn [d_comps]. destruct (d_comps d) as [c|].
  - split.
    + intros [c' [E H]]. injection E as <-. destruct k; cbn in H; apply M in H as [H K]; split; eauto.
    + intros [[c' [E H]] K]. injection E as <-. eexists. split; [reflexivity|]. destruct k; cbn; apply M; auto.
  - split; [intros [c' [E _]]; discriminate|intros [[c' [E _]] _]; discriminate].
Qed.

Lemma defines_restrict keep d k n : defines (restrict keep d) k n <-> defines d k n /\ keep k n = true.
Proof.
  assert (M : forall (A : Type) (m : list (string * A)), In n (map fst (filter (fun e => keep k (fst e)) m)) <-> In n (map fst m) /\ keep k n = true).
  { intros A m. rewrite !in_map_iff. split.
    - intros [r [<- I]]. apply filter_In in I as [I K]. split; [eauto|exact K].
    - intros [[r [E I]] K]. subst n. exists r. split; [reflexivity|]. apply filter_In; auto. }
  unfold defines, restrict. cbn [d_comps]. destruct (d_comps d) as [c|].
  - split.
    + intros [c' [E H]]. injection E as <-. destruct k; cbn in H; apply M in H as [H K]; split; eauto.
    + intros [[c' [E H]] K]. injection E as <-. eexists. split; [reflexivity|]. destruct k; cbn; apply M; auto.
  - split; [intros [c' [E _]]; discriminate|intros [[c' [E _]] _]; discriminate].
Qed.

Lemma supported_in keep d (P : kind -> string -> Prop) :
  supported d P -> (forall k n, P k n -> keep k n = true) ->
  forall k n, P k n -> narrow keep (findComponentRefs (restrict keep d)) k n = true.
Proof.
  intros Sp Sub k n H. unfold narrow. rewrite (Sub k n H). cbn [andb].
  destruct (is_security k) eqn:Ek; [reflexivity|]. cbn [orb]. apply in_slice, find_refs.
  destruct (Sp k n H) as [Q|[k' [n' [Q C]]]]; [destruct k; discriminate|left; exact Q|].
  right. exists k', n'. apply comp_restrict. auto.
Qed.

Lemma loop_spec d : forall fuel keep d',
  (forall n, keep KSecurity n = true) ->
  (forall P, supported d P -> forall k n, P k n -> keep k n = true) ->
  pruneUnusedComponents fuel (restrict keep d) = Ok d' ->
  exists keep', d' = restrict keep' d /\ (forall P, supported d P -> forall k n, P k n -> keep' k n = true) /\
    supported d (fun k n => keep' k n = true).
Proof.
  induction fuel as [|f IH]; intros keep d' Sec Sub E; [discriminate|]. cbn [pruneUnusedComponents] in E.
  set (refs := findComponentRefs (restrict keep d)) in *.
  destruct (remove_restrict keep d refs Sec) as [j [R [_ Z]]]. rewrite R in E.
  assert (Sec' : forall n, narrow keep refs KSecurity n = true) by (intros n; unfold narrow; rewrite Sec; reflexivity).
  assert (Sub' : forall P, supported d P -> forall k n, P k n -> narrow keep refs k n = true).
  { intros P Sp k n H. apply (supported_in keep d P Sp (Sub P Sp)). exact H. }
  destruct (Nat.ltb_spec j 1) as [L|L].
  - injection E as <-. exists (narrow keep refs). split; [reflexivity|]. split; [exact Sub'|].
    intros k n H Nk. unfold narrow in H. apply andb_true_iff in H as [_ H].
    destruct (is_security k) eqn:Ek; [destruct k; try discriminate; contradiction|]. cbn [orb] in H.
    apply in_slice in H. unfold refs in H. rewrite <- Z in H by lia. apply find_refs in H as [H|[k' [n' H]]].
    + left. exact H.
    + right. exists k', n'. apply comp_restrict in H as [H K]. auto.
  - apply (IH (narrow keep refs) d' Sec' Sub' E).
Qed.

Lemma prune_exact fuel d d' : pruneUnusedComponents fuel d = Ok d' ->
  exists keep, d' = restrict keep d /\ forall k n, keep k n = true <-> exists P, supported d P /\ P k n.
Proof.
  intros E. rewrite <- (restrict_all d) in E.
  destruct (loop_spec d fuel (fun _ _ => true) d' (fun _ => eq_refl) (fun _ _ _ _ _ => eq_refl) E) as [keep [-> [Sub Sp]]].
  exists keep. split; [reflexivity|]. intros k n. split.
  - intros H. exists (fun k n => keep k n = true). auto.
  - intros [P [SP H]]. exact (Sub P SP k n H).
Qed.

Lemma loop_total d : forall fuel keep, (forall n, keep KSecurity n = true) -> size (restrict keep d) < fuel ->
  exists d', pruneUnusedComponents fuel (restrict keep d) = Ok d'.
Proof.
  induction fuel as [|f IH]; intros keep Sec L; [lia|]. cbn [pruneUnusedComponents].
  set (refs := findComponentRefs (restrict keep d)). destruct (remove_restrict keep d refs Sec) as [j [-> [Sz _]]].
  destruct (Nat.ltb_spec j 1) as [L'|L']; [eauto|]. apply IH; [|lia].
  intros n. unfold narrow. rewrite Sec. reflexivity.
Qed.

Lemma prune_total fuel d : size d < fuel -> exists d', pruneUnusedComponents fuel d = Ok d'.
Proof. intros H. rewrite <- (restrict_all d) in *. apply loop_total; auto. Qed.

(** *** Consequences *)
Lemma used_supported d : supported d (used d).
Proof.
  intros k n U Nk. inversion U as [m|k1 n1 H|k1 n1 k' n' U' H]; subst; [contradiction|left; exact H|].
  right. eauto.
Qed.

Lemma used_kept fuel d d' k n : pruneUnusedComponents fuel d = Ok d' -> defines d k n -> used d k n -> defines d' k n.
Proof.
  intros E D U. destruct (prune_exact fuel d d' E) as [keep [-> K]]. apply defines_restrict. split; [exact D|].
  apply K. exists (used d). split; [apply used_supported|exact U].
Qed.

Lemma path_restrict keep d x : path_at false (restrict keep d) x <-> path_at false d x.
Proof. reflexivity. Qed.

Lemma seen_resolves fuel d d' k n : pruneUnusedComponents fuel d = Ok d' -> defines d k n ->
  path_at false d' (addr k n) \/ (exists k' n', comp_at false d' k' n' (addr k n)) -> defines d' k n.
Proof.
  intros E D R. destruct (prune_exact fuel d d' E) as [keep [-> K]]. apply defines_restrict. split; [exact D|].
  apply K. exists (fun a b => keep a b = true \/ (a = k /\ b = n)). split; [|right; auto].
  assert (Sp : supported d (fun a b => keep a b = true)).
  { intros a b H Na. apply K in H as [P [SP H]]. destruct (SP a b H Na) as [Q|[k' [n' [Q C]]]]; [left; exact Q|].
    right. exists k', n'. split; [|exact C]. apply K. eauto. }
  intros a b [H|[-> ->]] Na.
  - destruct (Sp a b H Na) as [Q|[k' [n' [Q C]]]]; [left; exact Q|right; exists k', n'; auto].
  - destruct R as [R|[k' [n' R]]]; [left; exact R|]. apply comp_restrict in R as [R Q]. right. exists k', n'. auto.
Qed.

Lemma acyclic_exact fuel d d' (rank : kind -> string -> nat) : pruneUnusedComponents fuel d = Ok d' ->
  (forall k n k' n', comp_at false d k' n' (addr k n) -> rank k' n' < rank k n) ->
  forall k n, defines d' k n <-> defines d k n /\ used d k n.
Proof.
  intros E R k n. split; [|intros [D U]; exact (used_kept fuel d d' k n E D U)].
  intros D. destruct (prune_exact fuel d d' E) as [keep [-> K]]. apply defines_restrict in D as [D H].
  split; [exact D|]. apply K in H as [P [SP H]]. clear D.
  remember (rank k n) as m eqn:Em. revert k n H Em. induction m as [m IH] using lt_wf_ind. intros k n H ->.
  assert (Dk : k = KSecurity \/ k <> KSecurity) by (destruct k; (left; reflexivity) || (right; discriminate)).
  destruct Dk as [->|Nk]; [apply us_security|].
  destruct (SP k n H Nk) as [Q|[k' [n' [Q C]]]]; [apply us_path; exact Q|].
  apply (us_comp d k n k' n'); [|exact C]. apply (IH (rank k' n') (R _ _ _ _ C) k' n' Q eq_refl).
Qed.

Lemma prune_again fuel f d d' : pruneUnusedComponents fuel d = Ok d' -> pruneUnusedComponents (S f) d' = Ok d'.
Proof.
  revert d d'. induction fuel as [|g IH]; intros d d' E; [discriminate|]. cbn [pruneUnusedComponents] in E.
  pose proof (remove_restrict (fun _ _ => true) d (findComponentRefs d) (fun _ => eq_refl)) as [j [R [_ Z]]].
  rewrite (restrict_all d) in R, Z. rewrite R in E. destruct (Nat.ltb_spec j 1) as [L|L]; [|exact (IH _ _ E)].
  injection E as <-. rewrite Z by lia. cbn [pruneUnusedComponents]. rewrite R.
  destruct (Nat.ltb_spec j 1) as [_|L']; [|lia]. rewrite Z by lia. reflexivity.
Qed.
