(** * What the text of a CSV file says

    Written without the model: cells, records and tables as texts. *)

From Coq Require Import String Ascii List Bool Arith Lia.
Import ListNotations.
Local Open Scope string_scope.
Local Open Scope list_scope.

(** the characters that have a meaning *)
Definition lf : ascii := ascii_of_nat 10.
Definition cr : ascii := ascii_of_nat 13.
Definition str (c : ascii) : string := String c EmptyString.
Notation QUOTE := (str (ascii_of_nat 34)).
Notation COMMA := (str (ascii_of_nat 44)).
Notation NL := (str lf).

(** [has s c]: the character occurs in the text *)
Definition has (s : string) (c : ascii) : Prop := exists a b, s = (a ++ str c ++ b)%string.
Definition starts (s t : string) : Prop := exists r, s = (t ++ r)%string.

(** The line ends of Windows and of old Macintoshes count as line ends;
    inside quotes too. *)
Inductive newlines : string -> string -> Prop :=
| nl_end : newlines "" ""
| nl_windows s t : newlines s t -> newlines (str cr ++ NL ++ s) (NL ++ t)
| nl_mac s t : ~ starts s NL -> newlines s t -> newlines (str cr ++ s) (NL ++ t)
| nl_other c s t : c <> cr -> newlines s t -> newlines (str c ++ s) (str c ++ t).

(** the quotes of a text written twice *)
Inductive doubled : string -> string -> Prop :=
| d_end : doubled "" ""
| d_quote s t : doubled s t -> doubled (QUOTE ++ s) (QUOTE ++ QUOTE ++ t)
| d_other c s t : str c <> QUOTE -> doubled s t -> doubled (str c ++ s) (str c ++ t).

(** text outside quotes: it does not begin with a quote *)
Definition outside (s : string) : Prop :=
  ~ has s lf /\ ~ has s (ascii_of_nat 44) /\ ~ starts s QUOTE.

(** [cell t v]: the text [t] of a cell says [v] *)
Inductive cell : string -> string -> Prop :=
| cell_plain s : outside s -> cell s s
| cell_quoted s t r : doubled s t -> outside r -> cell (QUOTE ++ t ++ QUOTE ++ r) (s ++ r).

(** cells with commas between them *)
Inductive record : string -> list string -> Prop :=
| record_one t v : cell t v -> record t [v]
| record_more t v ts vs : cell t v -> record ts vs -> record (t ++ COMMA ++ ts) (v :: vs).

(** a record whose last cell has a quote that is not closed *)
Inductive unclosed : string -> list string -> Prop :=
| unclosed_one s t : doubled s t -> unclosed (QUOTE ++ t) [s]
| unclosed_more t v ts vs : cell t v -> unclosed ts vs -> unclosed (t ++ COMMA ++ ts) (v :: vs).

(** records on lines of their own.  An empty line is a row without cells. *)
Inductive table : string -> list (list string) -> Prop :=
| table_end : table "" []
| table_blank s rows : table s rows -> table (NL ++ s) ([] :: rows)
| table_row t vs s rows : record t vs -> t <> "" -> table s rows -> table (t ++ NL ++ s) (vs :: rows)
| table_last t vs : record t vs -> t <> "" -> table t [vs]
| table_unclosed t vs : unclosed t vs -> table t [vs].
