(** * Specification: what regular expressions describe, and where texts end *)

From Coq Require Import String Ascii List Bool Arith.
From Verif Require Import Py InferenceModule Earley Lexer Regex.
Local Open Scope string_scope.

(** the characters that a part of a class means (those of [\w] are listed in
    [C79_word_characters], those of [\s] in [C60_whitespace_characters]) *)
Fixpoint meant (i : citem) (c : ascii) : Prop :=
  match i with
  | IChar d => c = d
  | IRange a b => nat_of_ascii a <= nat_of_ascii c <= nat_of_ascii b
  | IWord => word_char c = true
  | IDigit => 48 <= nat_of_ascii c <= 57
  | ISpace => is_space c = true
  | INot j => ~ meant j c
  end.
Definition in_class (negated : bool) (items : list citem) (c : ascii) : Prop :=
  if negated then forall i, In i items -> ~ meant i c else exists i, In i items /\ meant i c.

(** [describes r u rest]: the pattern describes the text [u] when it is
    followed by [rest] *)
Inductive describes : re -> string -> string -> Prop :=
| d_empty rest : describes REmpty "" rest
| d_class b l c rest : in_class b l c -> describes (RClass b l) (String c "") rest
| d_any c rest : c <> newline -> describes RAny (String c "") rest
| d_seq a b u v rest : describes a u (append v rest) -> describes b v rest -> describes (RSeq a b) (append u v) rest
| d_left a b u rest : describes a u rest -> describes (RAlt a b) u rest
| d_right a b u rest : describes b u rest -> describes (RAlt a b) u rest
| d_stop a rest : describes (RStar a) "" rest
| d_round a u v rest : describes a u (append v rest) -> describes (RStar a) v rest -> describes (RStar a) (append u v) rest
| d_lazy a u rest : describes (RStar a) u rest -> describes (RLazy a) u rest
| d_some a u rest : describes a u rest -> describes (ROpt a) u rest
| d_none a rest : describes (ROpt a) "" rest
| d_end : describes REnd "" ""
| d_end_line : describes REnd "" (String newline "").

(** the character at a position is the quote *)
Definition quote_at (q : ascii) (s : string) (n : nat) : Prop := String.get n s = Some q.
(** it follows a backslash *)
Definition after_backslash (s : string) (n : nat) : Prop :=
  exists m, n = S m /\ String.get m s = Some backslash.

(** ** which of the matches is chosen *)

(** [path r s n cs]: at the start of [s] the pattern takes [n] characters, when
    the choices between two possibilities are [cs], each [true] when it is the
    preferred one: the left alternative, one more round of a repetition (but the
    end of a lazy one), an optional part.  A repetition ends with a round that
    takes nothing. *)
Import ListNotations.
Local Open Scope list_scope.
Inductive path : re -> string -> nat -> list bool -> Prop :=
| p_empty s : path REmpty s 0 []
| p_class b l c s : in_class b l c -> path (RClass b l) (String c s) 1 []
| p_any c s : c <> newline -> path RAny (String c s) 1 []
| p_seq a b s n m cs ds : path a s n cs -> path b (drop n s) m ds -> path (RSeq a b) s (n + m) (cs ++ ds)
| p_left a b s n cs : path a s n cs -> path (RAlt a b) s n (true :: cs)
| p_right a b s n cs : path b s n cs -> path (RAlt a b) s n (false :: cs)
| p_stop a s : path (RStar a) s 0 [false]
| p_last a s cs : path a s 0 cs -> path (RStar a) s 0 (true :: cs)
| p_round a s n m cs ds : path a s n cs -> n <> 0 -> path (RStar a) (drop n s) m ds ->
    path (RStar a) s (n + m) (true :: cs ++ ds)
| p_lazy_stop a s : path (RLazy a) s 0 [true]
| p_lazy_last a s cs : path a s 0 cs -> path (RLazy a) s 0 (false :: cs)
| p_lazy_round a s n m cs ds : path a s n cs -> n <> 0 -> path (RLazy a) (drop n s) m ds ->
    path (RLazy a) s (n + m) (false :: cs ++ ds)
| p_some a s n cs : path a s n cs -> path (ROpt a) s n (true :: cs)
| p_none a s : path (ROpt a) s 0 [false]
| p_end : path REnd "" 0 []
| p_end_line : path REnd (String newline "") 0 [].

(** the first choice that differs is the preferred one *)
Definition earlier (cs ds : list bool) : Prop :=
  exists common cs' ds', cs = common ++ true :: cs' /\ ds = common ++ false :: ds'.
