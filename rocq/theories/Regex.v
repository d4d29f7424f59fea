(** * Regular expressions

    A model of the part of Python's [re] that the library relies on: the
    patterns in
      /repo/richard/processor/parser/helper/SimpleGrammarRulesParser.py 18-33,
      /repo/richard/module/helper/SimpleInferenceRuleParser.py 16-34,
      /repo/richard/processor/parser/BasicParser.py 31,
      /repo/richard/entity/Relation.py 22
    and those that users write in grammar rules
    (/repo/richard/processor/parser/earley/EarleyParser.py 197-204).

    Patterns are strings, as in the source; [compile] reads them.  Matching
    is by backtracking: [matches] lists the lengths of all matches at the start
    of a text in the order in which Python tries them.  Modelled are
    characters, escapes, classes, [.], groups, [|], greedy and lazy [* + ?], [$]
    and [^] at the start of a pattern, where it changes nothing for [re.match];
    not modelled (and refused by [compile]) are counted and possessive
    repetition, lookaround, [^] elsewhere, word boundaries, numeric and Unicode
    escapes, back references and flags. *)

From Coq Require Import String Ascii List Bool Arith.
From Verif Require Import Py InferenceModule Earley Lexer.
Import ListNotations.
Local Open Scope string_scope.
Local Open Scope list_scope.

(** what can stand between brackets *)
Inductive citem : Type :=
| IChar (c : ascii)
| IRange (a b : ascii)
| IWord | IDigit | ISpace
| INot (i : citem).       (** [\W \D \S] *)

Inductive re : Type :=
| REmpty
| RClass (negated : bool) (items : list citem)
| RAny                    (** [.] *)
| RSeq (a b : re)
| RAlt (a b : re)
| RStar (a : re)
| RLazy (a : re)          (** [*?] *)
| ROpt (a : re)
| REnd.                   (** [$] *)

Definition RPlus (a : re) : re := RSeq a (RStar a).
Definition RChar (c : ascii) : re := RClass false [IChar c].

Fixpoint item_test (i : citem) (c : ascii) : bool :=
  match i with
  | IChar d => Ascii.eqb c d
  | IRange a b => Nat.leb (nat_of_ascii a) (nat_of_ascii c) && Nat.leb (nat_of_ascii c) (nat_of_ascii b)
  | IWord => word_char c
  | IDigit => digit_char c
  | ISpace => is_space c
  | INot j => negb (item_test j c)
  end.
Definition class_test (negated : bool) (items : list citem) (c : ascii) : bool :=
  xorb negated (existsb (fun i => item_test i c) items).

(** one character that satisfies a test *)
Definition one_char (p : ascii -> bool) (s : string) : list nat :=
  match s with String c _ => if p c then [1] else [] | EmptyString => [] end.

(** the lengths of the matches at the start of [s], in order of preference.  A
    repetition ends with a round that takes no character (CPython's _sre.c,
    SRE_OP_MAX_UNTIL and SRE_OP_MIN_UNTIL), so that there are at most as many
    rounds as characters, and one more. *)
Fixpoint matches (r : re) (s : string) {struct r} : list nat :=
  match r with
  | REmpty => [0]
  | RClass negated items => one_char (class_test negated items) s
  | RAny => one_char (fun c => negb (Ascii.eqb c newline)) s
  | RSeq a b => flat_map (fun n => map (Nat.add n) (matches b (drop n s))) (matches a s)
  | RAlt a b => matches a s ++ matches b s
  | RStar a =>
      (fix star (k : nat) (s : string) {struct k} : list nat :=
         match k with
         | O => [0]
         | S k' => flat_map (fun n => match n with
                                      | O => [0]
                                      | S _ => map (Nat.add n) (star k' (drop n s))
                                      end) (matches a s) ++ [0]
         end) (S (String.length s)) s
  | RLazy a =>
      (fix star (k : nat) (s : string) {struct k} : list nat :=
         match k with
         | O => [0]
         | S k' => 0 :: flat_map (fun n => match n with
                                           | O => [0]
                                           | S _ => map (Nat.add n) (star k' (drop n s))
                                           end) (matches a s)
         end) (S (String.length s)) s
  | ROpt a => matches a s ++ [0]
  | REnd => match s with
            | EmptyString => [0]
            | String c EmptyString => if Ascii.eqb c newline then [0] else []
            | _ => []
            end
  end.

(** [re.match(r, s)]: the length of the match *)
Definition re_match (r : re) (s : string) : option nat := hd_error (matches r s).

(** [re.fullmatch(r, s)] *)
Definition re_fullmatch (r : re) (s : string) : bool := existsb (Nat.eqb (String.length s)) (matches r s).

(** [re.findall(r, s)] with one group around the whole pattern, for patterns
    that do not match the empty text *)
Fixpoint re_findall_from (k : nat) (r : re) (s : string) : list string :=
  match k, s with
  | S k', String _ s' =>
      match re_match r s with
      | Some (S n) => take (S n) s :: re_findall_from k' r (drop (S n) s)
      | _ => re_findall_from k' r s'
      end
  | _, _ => []
  end.
Definition re_findall (r : re) (s : string) : list string := re_findall_from (String.length s) r s.

(** [re.sub(r, by, s)], for such patterns *)
Fixpoint re_sub_from (k : nat) (r : re) (by_ : string) (s : string) : string :=
  match k, s with
  | S k', String c s' =>
      match re_match r s with
      | Some (S n) => append by_ (re_sub_from k' r by_ (drop (S n) s))
      | _ => String c (re_sub_from k' r by_ s')
      end
  | _, _ => EmptyString
  end.
Definition re_sub (r : re) (by_ s : string) : string := re_sub_from (String.length s) r by_ s.

(** ** Reading a pattern *)

(** the character after a backslash; other letters and digits are refused *)
Definition letter_or_digit (c : ascii) : bool :=
  let n := nat_of_ascii c in
  (Nat.leb 48 n && Nat.leb n 57) || (Nat.leb 65 n && Nat.leb n 90) || (Nat.leb 97 n && Nat.leb n 122).
Definition escaped (c : ascii) : option citem :=
  if Ascii.eqb c "w" then Some IWord
  else if Ascii.eqb c "d" then Some IDigit
  else if Ascii.eqb c "s" then Some ISpace
  else if Ascii.eqb c "W" then Some (INot IWord)
  else if Ascii.eqb c "D" then Some (INot IDigit)
  else if Ascii.eqb c "S" then Some (INot ISpace)
  else if Ascii.eqb c "a" then Some (IChar (ascii_of_nat 7))
  else if Ascii.eqb c "t" then Some (IChar (ascii_of_nat 9))
  else if Ascii.eqb c "n" then Some (IChar newline)
  else if Ascii.eqb c "v" then Some (IChar (ascii_of_nat 11))
  else if Ascii.eqb c "f" then Some (IChar (ascii_of_nat 12))
  else if Ascii.eqb c "r" then Some (IChar (ascii_of_nat 13))
  else if letter_or_digit c then None
  else Some (IChar c).

(** one item of the inside of [...]; there [\b] is a backspace *)
Definition class_item (c : ascii) (s : string) : option (citem * string) :=
  if Ascii.eqb c backslash then
    match s with
    | String d s' =>
        if Ascii.eqb d "b" then Some (IChar (ascii_of_nat 8), s')
        else match escaped d with Some i => Some (i, s') | None => None end
    | EmptyString => None
    end
  else Some (IChar c, s).

(** the inside of [...], up to the closing bracket; a closing bracket at the
    start is a character *)
Fixpoint class_items (n : nat) (first : bool) (s : string) : option (list citem * string) :=
  match n, s with
  | S n', String c s' =>
      if Ascii.eqb c "]" && negb first then Some ([], s')
      else match class_item c s' with
      | None => None
      | Some (i, String h s2) =>
          if Ascii.eqb h "-" then
            match s2 with
            | String d s3 =>
                if Ascii.eqb d "]" then Some ([i; IChar "-"], s3)
                else match i, class_item d s3 with
                | IChar a, Some (IChar b, s4) =>
                    if Nat.leb (nat_of_ascii a) (nat_of_ascii b) then
                      match class_items n' false s4 with Some (l, rest) => Some (IRange a b :: l, rest) | None => None end
                    else None
                | _, _ => None
                end
            | EmptyString => None
            end
          else match class_items n' false (String h s2) with Some (l, rest) => Some (i :: l, rest) | None => None end
      | Some (_, EmptyString) => None
      end
  | _, _ => None
  end.

(** a quantifier; [lazy] ones end with a question mark *)
Definition quantifier_char (c : ascii) : bool := Ascii.eqb c "*" || Ascii.eqb c "+" || Ascii.eqb c "?".
Definition quantified (r : re) (c : ascii) (lazy : bool) : re :=
  if Ascii.eqb c "*" then (if lazy then RLazy r else RStar r)
  else if Ascii.eqb c "+" then (if lazy then RSeq r (RLazy r) else RPlus r)
  else (if lazy then RAlt REmpty r else ROpt r).
Definition postfix (repeatable : bool) (r : re) (s : string) : option (re * string) :=
  match s with
  | String c s' =>
      if quantifier_char c then
        if negb repeatable then None                (* nothing to repeat *)
        else match s' with
        | String d s'' =>
            if Ascii.eqb d "?" then
              match s'' with
              | String e _ => if quantifier_char e then None else Some (quantified r c true, s'')
              | EmptyString => Some (quantified r c true, s'')
              end
            else if quantifier_char d then None     (* multiple repeat *)
            else Some (quantified r c false, s')
        | EmptyString => Some (quantified r c false, s')
        end
      else Some (r, s)
  | EmptyString => Some (r, s)
  end.

(** the end of an alternative *)
Definition stops (s : string) : bool :=
  match s with EmptyString => true | String c _ => Ascii.eqb c "|" || Ascii.eqb c ")" end.

Fixpoint read_alt (n : nat) (s : string) : option (re * string) :=
  match n with
  | O => None
  | S n' =>
      match read_seq n' s with
      | Some (r, String c s') =>
          if Ascii.eqb c "|" then
            match read_alt n' s' with Some (r', rest) => Some (RAlt r r', rest) | None => None end
          else Some (r, String c s')
      | o => o
      end
  end
with read_seq (n : nat) (s : string) : option (re * string) :=
  match n with
  | O => None
  | S n' =>
      match s with
      | EmptyString => Some (REmpty, s)
      | String c s' =>
          if stops s then Some (REmpty, s)
          else match read_atom n' s with
          | Some (a, rest) =>
              match postfix (negb (Ascii.eqb c "$")) a rest with
              | Some (a', rest') =>
                  if stops rest' then Some (a', rest')
                  else match read_seq n' rest' with Some (b, rest'') => Some (RSeq a' b, rest'') | None => None end
              | None => None
              end
          | None => None
          end
      end
  end
with read_atom (n : nat) (s : string) : option (re * string) :=
  match n with
  | O => None
  | S n' =>
      match s with
      | EmptyString => None
      | String c s' =>
          if Ascii.eqb c "(" then
            let inner := match s' with
                         | String d (String e s'') => if Ascii.eqb d "?" && Ascii.eqb e ":" then s'' else s'
                         | _ => s'
                         end in
            match read_alt n' inner with
            | Some (r, String d rest) => if Ascii.eqb d ")" then Some (r, rest) else None
            | _ => None
            end
          else if Ascii.eqb c "[" then
            match s' with
            | String d s'' =>
                if Ascii.eqb d "^" then
                  match class_items (String.length s'') true s'' with Some (l, rest) => Some (RClass true l, rest) | None => None end
                else match class_items (String.length s') true s' with Some (l, rest) => Some (RClass false l, rest) | None => None end
            | EmptyString => None
            end
          else if Ascii.eqb c backslash then
            match s' with
            | String d rest => match escaped d with Some i => Some (RClass false [i], rest) | None => None end
            | EmptyString => None
            end
          else if Ascii.eqb c "." then Some (RAny, s')
          else if Ascii.eqb c "$" then Some (REnd, s')
          else if Ascii.eqb c "^" || Ascii.eqb c "{" || Ascii.eqb c "|" || Ascii.eqb c ")" then None
          else if quantifier_char c then None
          else Some (RChar c, s')
      end
  end.

(** [re.compile] *)
Definition compile (s : string) : option re :=
  let s := match s with String c s' => if Ascii.eqb c "^" then s' else s | EmptyString => s end in
  match read_alt (3 * String.length s + 3) s with
  | Some (r, EmptyString) => Some r
  | _ => None
  end.

(** ** The patterns of the library *)

(** ['(' + '|'.join([...]) + ')'] *)
Fixpoint join_alts (l : list string) : string :=
  match l with
  | [] => ""
  | [p] => p
  | p :: l' => append p (append "|" (join_alts l'))
  end.
Definition group (l : list string) : string := append "(" (append (join_alts l) ")").

Definition dq : string := String quote2 "".
Definition nl : string := String newline "".

(** SimpleGrammarRulesParser.py 18-31 *)
Definition grammar_pattern : string := group
  ["\?"; ","; "->"; "\("; "\)"; "/(?:\\/|[^/])+/"; "'(?:\\'|[^'])+'";
   append dq (append "(?:\\" (append dq (append "|[^" (append dq (append "])+" dq)))));
   "[A-Z]\w*"; "\w+"; "\+"; "~"].

(** SimpleInferenceRuleParser.py 16-30 *)
Definition rule_pattern : string := group
  ["\."; ","; ";"; ":-"; "\("; "\)"; "\d+\.\d+"; "\d+"; "'(?:\\'|[^'])+'";
   append dq (append "(?:\\" (append dq (append "|[^" (append dq (append "])+" dq)))));
   "[A-Z]\w*"; "\w+"; append "#.*" nl].

(** the others *)
Definition identifier_pattern : string := "^\w+$".
Definition variable_pattern : string := "^[A-Z]\w*$".
Definition float_pattern : string := "^\d+\.\d+$".
Definition int_pattern : string := "^\d+$".
Definition space_pattern : string := "\s+".
Definition predicate_pattern : string := "[\w_]+".
