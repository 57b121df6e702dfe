(** Closing lemmas and witnesses for C10. *)
From Verif Require Import Prelude CueFrag CueSem CueProofs Compat.
Local Open Scope string_scope.
Local Open Scope list_scope.

(** A sequence of schemas each compatible with its predecessor. *)
Fixpoint compat_chain (p : val) (l : list val) : Prop :=
  match l with
  | [] => True
  | s :: r => ThemaCompatible p s = true /\ compat_chain s r
  end.

Lemma chain_member : forall l p d s,
  compat_chain p l -> inst p d = true -> In s (p :: l) -> inst s d = true.
Proof.
  induction l as [|q l IH]; intros p d s H Hi Hs.
  - destruct Hs as [<-|[]]. exact Hi.
  - destruct H as [H1 H2]. destruct Hs as [<-|Hs]; [exact Hi|].
    apply (IH q d s H2); [|exact Hs]. apply (subs_sound q p d H1 Hi).
Qed.

(** [{n: *5 | int}] and [{n: int}]: the default is dropped. *)
Definition with_default : val :=
  VStruct [("n", false, VOr [(true, VAtom (AInt 5)); (false, VType TInt)])] None.
Definition without_default : val := VStruct [("n", false, VType TInt)] None.

Lemma default_dropped :
  exists p s d, wf p /\ wf s /\ simple p = true /\ simple s = true /\
    ThemaCompatible p s = true /\ valid p d /\ ~ valid s d.
Proof.
  exists with_default, without_default, (DStruct []).
  split; [repeat constructor; intros []|]. split; [repeat constructor; intros []|].
  do 3 (split; [reflexivity|]). split.
  - exists (DStruct [("n", DAtom (AInt 5))]). reflexivity.
  - intros [r H]. discriminate.
Qed.

(** [{a: int}] and [{a: int} | {a: int, b: *1 | int}]: both disjuncts accept
    [{a: 1}], with different results. *)
Definition one_shape : val := VStruct [("a", false, VType TInt)] None.
Definition two_shapes : val :=
  VOr [(false, one_shape);
       (false, VStruct [("a", false, VType TInt);
                        ("b", false, VOr [(true, VAtom (AInt 1)); (false, VType TInt)])] None)].

Lemma ambiguous :
  exists p s d, wf p /\ wf s /\ ThemaCompatible p s = true /\
    valid p d /\ inst p d = true /\ inst s d = true /\ ~ valid s d.
Proof.
  exists one_shape, two_shapes, (DStruct [("a", DAtom (AInt 1))]).
  split; [repeat constructor; intros []|]. split.
  { repeat split; repeat constructor; cbn; intuition congruence. }
  split; [reflexivity|]. split; [exists (DStruct [("a", DAtom (AInt 1))]); reflexivity|].
  split; [reflexivity|]. split; [reflexivity|]. intros [r H]. discriminate.
Qed.

Lemma member_kept : forall p s d,
  ThemaCompatible p s = true -> inst p d = true -> inst s d = true.
Proof. intros p s d. apply subs_sound. Qed.

Lemma completed_kept : forall p s d r,
  wf p -> simple s = true -> ThemaCompatible p s = true ->
  eval p (Some d) = Con r -> eval s (Some r) = Con r.
Proof. exact upgrade_completed. Qed.

Lemma valid_kept : forall p s d,
  simple p = true -> simple s = true -> ThemaCompatible p s = true -> keeps s p = true ->
  valid p d -> valid s d.
Proof.
  intros p s d Hp Hs H K [r E]. apply (upgrade_valid s p Hs Hp H K d r E).
Qed.

(** The example of the properties file: an enum widened, an optional field and a
    field of a nested struct added, the default kept. *)
Definition old_schema : val :=
  VStruct [("name", false, VType TString);
           ("mode", false, VOr [(true, VAtom (AString "foo")); (false, VAtom (AString "bar"))]);
           ("sizes", false, VList [] (Some (VRange (Some 0%Z) (Some 9%Z))));
           ("nest", true, VStruct [("x", false, VType TInt)] None)] None.
Definition new_schema : val :=
  VStruct [("name", false, VType TString);
           ("mode", false, VOr [(true, VAtom (AString "foo")); (false, VAtom (AString "bar"));
                                (false, VAtom (AString "baz"))]);
           ("sizes", false, VList [] (Some (VRange (Some 0%Z) (Some 99%Z))));
           ("nest", true, VStruct [("x", false, VType TNumber); ("y", true, VTop)] None);
           ("added", true, VType TBool)] None.
