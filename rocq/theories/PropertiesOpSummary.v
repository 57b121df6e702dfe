(** C138: summaries of operations as comments. *)
From Verif Require Import Prelude Strings Util GenName GenCommentProofs OpSummary OpSummarySpec OpSummaryProofs.
Local Open Scope string_scope.
Local Open Scope list_scope.

(** Every summary has lines, and only these. *)
Theorem C138_summary : forall s, s <> "" -> exists ls, has_lines s ls /\ forall ms, has_lines s ms -> ms = ls.
Proof. exact lines_exist. Qed.
Print Assumptions C138_summary.

(** The comment has a line for each line of the summary, marked as a comment, and
    no other ones. *)
Theorem C138_comment : forall s ls, s <> "" -> has_lines s ls ->
  summaryAsComment s = String.concat newline (map (fun l => ("// " ++ l)%string) ls) /\
  split_str (summaryAsComment s) newline = map (fun l => ("// " ++ l)%string) ls.
Proof. exact comment_of. Qed.
Print Assumptions C138_comment.

(** There is a comment exactly if there is a summary. *)
Theorem C138_empty : forall s, summaryAsComment s = "" <-> s = "".
Proof. exact comment_empty. Qed.
Print Assumptions C138_empty.

Example C138_cases :
  has_lines ("Find pets." ++ newline ++ newline ++ "By tag." ++ newline)%string ["Find pets."; ""; "By tag."] /\
  summaryAsComment ("Find pets." ++ newline ++ newline ++ "By tag." ++ newline)%string
  = ("// Find pets." ++ newline ++ "// " ++ newline ++ "// By tag.")%string /\
  has_lines newline [""] /\ summaryAsComment newline = "// ".
Proof.
  repeat split; try discriminate; repeat constructor.
Qed.
