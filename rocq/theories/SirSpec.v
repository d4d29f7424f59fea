(** * What a system that is taught set inclusion should say

    Independent of the model of the code: which texts are sentences, what the
    facts told imply, and what is the right reply. *)

From Coq Require Import String Ascii List Bool Relations.
From Verif Require Import Py InferenceModule Earley.
Import ListNotations.
Local Open Scope string_scope.
Local Open Scope list_scope.

(** ** words *)

(** words of at least one letter, digit or underscore, each behind a hyphen *)
Fixpoint hyphened (groups : list string) : string :=
  match groups with
  | [] => ""
  | g :: gs => append "-" (append g (hyphened gs))
  end.
(** a word of at least two characters, and more words behind hyphens *)
Definition name (x : string) : Prop :=
  exists w groups, x = append w (hyphened groups) /\ 2 <= String.length w /\ all_word w = true /\
    forall g, In g groups -> g <> "" /\ all_word g = true.
(** a name that cannot be a plural *)
Definition noun (x : string) : Prop :=
  name x /\ forall u, x <> append u "s" /\ x <> append u "S".

(** ** sentences *)

Inductive sentence : Type :=
| Told (x y : string)
| Asked (x y : string).

(** "a" or "an", in any case *)
Definition article (w : string) : Prop := lower w = "a" \/ lower w = "an".
(** words with single spaces between them *)
Definition spaced (ws : list string) : string := String.concat " " ws.

(** the texts of a sentence; but for nouns the case does not matter *)
Inductive worded : sentence -> string -> Prop :=
| a_is_a a x w b y : article a -> noun x -> lower w = "is" -> article b -> noun y ->
    worded (Told x y) (spaced [a; x; w; b; y])
| every_is_a e x w b y : lower e = "every" -> noun x -> lower w = "is" -> article b -> noun y ->
    worded (Told x y) (spaced [e; x; w; b; y])
| any_is_an_example e x w n m o b y : lower e = "any" -> noun x -> lower w = "is" -> lower n = "an" -> lower m = "example" ->
    lower o = "of" -> article b -> noun y ->
    worded (Told x y) (spaced [e; x; w; n; m; o; b; y])
| is_a_a w a x b y mark : lower w = "is" -> article a -> noun x -> article b -> noun y -> mark = "?" \/ mark = " ?" ->
    worded (Asked x y) (append (spaced [w; a; x; b; y]) mark).

(** ** facts *)

Definition told (s : sentence) : list (string * string) :=
  match s with Told x y => [(x, y)] | Asked _ _ => [] end.
(** what follows: a chain of facts *)
Definition chain (facts : list (string * string)) : string -> string -> Prop :=
  clos_trans string (fun x y => In (x, y) facts).
(** from [x] one comes to a circle *)
Definition circular (facts : list (string * string)) (x : string) : Prop := exists z, chain facts x z /\ chain facts z z.
Definition acyclic (facts : list (string * string)) : Prop := forall x, ~ chain facts x x.

(** ** replies *)

Inductive right_reply (facts : list (string * string)) : sentence -> string -> Prop :=
| noted x y : right_reply facts (Told x y) "I understand"
| yes x y : x = y \/ chain facts x y -> right_reply facts (Asked x y) "Yes"
| sometimes x y : x <> y -> ~ chain facts x y -> chain facts y x -> right_reply facts (Asked x y) "Sometimes"
| unknown x y : x <> y -> ~ chain facts x y -> ~ chain facts y x -> right_reply facts (Asked x y) "Insufficient information".

(** each reply is right given what has been told before *)
Inductive right_replies : list (string * string) -> list sentence -> list string -> Prop :=
| no_more facts : right_replies facts [] []
| one_more facts s ss r rs : right_reply facts s r -> right_replies (facts ++ told s) ss rs ->
    right_replies facts (s :: ss) (r :: rs).

(** a question is answered if no circle is met: from [x], and, if the answer is
    not yes, from [y] *)
Definition answerable (facts : list (string * string)) (s : sentence) : Prop :=
  match s with
  | Told _ _ => True
  | Asked x y => ~ circular facts x /\ (x = y \/ chain facts x y \/ ~ circular facts y)
  end.
(** sentences that can be answered get the right reply, the others none *)
Inductive answers : list (string * string) -> list sentence -> list (option string) -> Prop :=
| answers_none facts : answers facts [] []
| answers_one facts s ss r rs : answerable facts s -> right_reply facts s r -> answers (facts ++ told s) ss rs ->
    answers facts (s :: ss) (Some r :: rs)
| answers_lost facts s ss rs : ~ answerable facts s -> answers (facts ++ told s) ss rs -> answers facts (s :: ss) (None :: rs).
