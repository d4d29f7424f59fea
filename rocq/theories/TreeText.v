(** * The texts of parse trees

    Models /repo/richard/entity/ParseTreeNode.py 39-52 ([inline_str]);
    [__str__] (lines 19-38) is [tree_str] in [Logger.v]. *)

From Coq Require Import String Ascii List Bool.
From Verif Require Import Earley Composer.
Import ListNotations.
Local Open Scope string_scope.

(** ParseTreeNode.py 39-52.  [sep] is empty for the first child, whether it is
    shown or not. *)
Fixpoint inline_str (t : ctree) : string :=
  match t with
  | Node cat children _ _ =>
      cat ++ "("
      ++ (fix body (sep : string) (l : list ctree) : string :=
            match l with
            | [] => ""
            | Node c cs form r as child :: rest =>
                (if String.eqb form " " then ""
                 else if String.eqb form "" then sep ++ inline_str child
                 else sep ++ c ++ " '" ++ form ++ "'")
                ++ body " " rest
            end) "" children
      ++ ")"
  end.
