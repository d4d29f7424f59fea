(** * What is to be seen of a parse tree *)

From Coq Require Import String Ascii List Bool.
From Verif Require Import Earley Composer.
Import ListNotations.
Local Open Scope string_scope.

(** words with their categories, and phrases with their parts *)
Inductive outline : Type :=
| Word (category form : string)
| Phrase (category : string) (parts : list outline).

Fixpoint outline_of (t : ctree) : outline :=
  match t with
  | Node cat children form _ => match form with EmptyString => Phrase cat (map outline_of children) | _ => Word cat form end
  end.

(** without the spaces between the words *)
Definition shown (o : outline) : bool := match o with Word _ " " => false | _ => true end.
Fixpoint tidy (o : outline) : outline :=
  match o with
  | Word c f => Word c f
  | Phrase c parts => Phrase c (filter shown (map tidy parts))
  end.

(** [without bad s]: none of these characters occurs *)
Definition without (bad : list ascii) (s : string) : Prop := forall c, In c bad -> forall a b, s <> a ++ String c b.
Definition newline : ascii := ascii_of_nat 10.
(** on one line: words that are shown have no quote, their categories and
    those of phrases can be told from the signs around them *)
Inductive clear_text : outline -> Prop :=
| clear_word c f : c <> "" -> without [" "; "("; ")"]%char c -> without ["'"]%char f -> clear_text (Word c f)
| clear_space c : clear_text (Word c " ")
| clear_phrase c parts : c <> "" -> without [" "; "("; ")"]%char c -> Forall clear_text parts -> clear_text (Phrase c parts).

(** on lines: there is no quote, except in the category of a word, and no line end *)
Inductive clear_lines : outline -> Prop :=
| clean_word c f : without [newline] c -> without ["'"; newline]%char f -> clear_lines (Word c f)
| clean_phrase c parts : without ["'"; newline]%char c -> Forall clear_lines parts -> clear_lines (Phrase c parts).
