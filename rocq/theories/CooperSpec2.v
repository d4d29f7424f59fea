(** * The sentences of the Cooper dialogs, as words *)

From Coq Require Import String Ascii List Bool.
From Verif Require Import Py Earley InferenceModule.
Import ListNotations.
Local Open Scope string_scope.
Local Open Scope list_scope.

(** words that stand for qualities in lessons, and in questions *)
Definition lesson_nouns : list (string * string) :=
  [("nonmetal", "nonmetal"); ("fuel", "fuel"); ("metal", "metal"); ("oxide", "oxide"); ("sulfide", "sulfide"); ("chloride", "chloride"); ("brittle", "brittle");
   ("element", "element"); ("elements", "element"); ("compound", "compound"); ("compounds", "compound")].
Definition question_nouns : list (string * string) :=
  [("metal", "metal"); ("nonmetal", "nonmetal"); ("compound", "compound"); ("element", "element"); ("white", "white"); ("dark-gray", "dark_gray");
   ("oxide", "oxide"); ("oxides", "oxide"); ("sulfide", "sulfide"); ("sulfides", "sulfide"); ("brittle", "brittle"); ("fuel", "fuel")].
Definition articles : list string := ["a"; "an"].

(** the words that names do not have *)
Definition grammar_words : list string :=
  ["is"; "are"; "a"; "an"; "no"; "not"; "any"; "some"; "every"; "thing"; "things"; "anything"; "that"; "burn"; "burns"; "rapidly"; "white"; "dark-gray"; "metallic"; "combustable";
   "nonmetal"; "fuel"; "metal"; "oxide"; "oxides"; "sulfide"; "sulfides"; "chloride"; "brittle"; "element"; "elements"; "compound"; "compounds"].
(** a word of a name: letters, digits and underscores, without capitals *)
Definition name_word (u : string) : Prop := u <> "" /\ forallb word_char (list_ascii_of_string u) = true /\ lower u = u /\ ~ In u grammar_words.
(** a name has one or two words *)
Inductive name_words : list string -> string -> Prop :=
| one_word u : name_word u -> name_words [u] u
| two_words u v : name_word u -> name_word v -> name_words [u; v] (u ++ " " ++ v)%string.

(** questions about a thing: what the words after the name are, and whether it is the
    quality or its opposite that is asked for *)
Inductive question_words (w : string) : bool -> list string -> Prop :=
| is_a d : In d articles -> question_words w true ["is"; d; w]
| is_ : question_words w true ["is"; w]
| is_not_a d : In d articles -> question_words w false ["is"; "not"; d; w]
| is_not : question_words w false ["is"; "not"; w].

(** lessons: that something has a quality, and that whatever has quality [A] has, or
    has not, quality [B] *)
Inductive lesson : Type :=
| Tell (name q : string)
| Learn (A B : string) (v : bool).
Inductive lesson_words : lesson -> list string -> list string -> Prop :=
| tell_words names name d w q : name_words names name -> In d articles -> In (w, q) lesson_nouns -> lesson_words (Tell name q) names ["is"; d; w]
| no_words d w1 A w2 B : In d articles -> In (w1, A) lesson_nouns -> In (w2, B) lesson_nouns -> lesson_words (Learn A B false) [] ["no"; w1; "is"; d; w2]
| are_words w1 A w2 B : In (w1, A) lesson_nouns -> In (w2, B) lesson_nouns -> lesson_words (Learn A B true) [] [w1; "are"; w2]
| a_not_words d d2 w1 A w2 B : In d articles -> In d2 articles -> In (w1, A) lesson_nouns -> In (w2, B) lesson_nouns -> lesson_words (Learn A B false) [] [d2; w1; "is"; "not"; d; w2].

(** the words of a text: those of the names as they are, the others in any case *)
Definition in_words (names others : list string) (text : string) : Prop :=
  exists us, map lower us = others /\ text = String.concat " " (names ++ us).

(** what follows from lessons *)
Inductive holds (lessons : list lesson) (name : string) : string -> bool -> Prop :=
| was_told q : In (Tell name q) lessons -> holds lessons name q true
| by_rule A B v : In (Learn A B v) lessons -> holds lessons name A true -> holds lessons name B v.
Inductive right_reply (lessons : list lesson) (name q : string) (v : bool) : string -> Prop :=
| reply_true : holds lessons name q v -> right_reply lessons name q v "True"
| reply_false : ~ holds lessons name q v -> holds lessons name q (negb v) -> right_reply lessons name q v "False"
| reply_unable : ~ holds lessons name q true -> ~ holds lessons name q false -> right_reply lessons name q v "Unable to answer".
