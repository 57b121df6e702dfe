(** The comments of functions: facts for C102. *)
From Verif Require Import Prelude Strings Version Util GenName GenNameProofs GenCommentProofs Gocode GoComment GoCommentProofs.
Local Open Scope string_scope.
Local Open Scope list_scope.

Lemma functions_kept u fold c r n sig :
  (forall h t, c = h :: t -> exists l, h = ("// " ++ l)%string /\ ~ has_todo l) ->
  fixTODOComments u fold [DFunc c r n sig] = Ok [DFunc c r n sig].
Proof.
  intros H. unfold fixTODOComments, fix_decl. cbn [omap isTypeSpec bind decl_comments with_comments].
  destruct c as [|h t]; [reflexivity|]. destruct (H h t eq_refl) as (l & -> & T). rewrite todo_keeps by exact T. reflexivity.
Qed.
