(** * Models of the token patterns of
      /repo/richard/processor/parser/helper/SimpleGrammarRulesParser.py and
      /repo/richard/module/helper/SimpleInferenceRuleParser.py

    The two parsers split a text with [re.findall(re_tokens, text)], where
    [re_tokens] is an alternative of patterns.  Python tries the patterns in
    order at each position; a position where none matches is skipped. *)

From Coq Require Import String Ascii List Bool Arith.
From Verif Require Import Py InferenceModule Earley.
Import ListNotations.
Local Open Scope string_scope.
Local Open Scope list_scope.

Definition backslash : ascii := ascii_of_nat 92.
Definition newline : ascii := ascii_of_nat 10.
Definition quote1 : ascii := "'"%char.
Definition quote2 : ascii := ascii_of_nat 34.
Definition slash : ascii := "/"%char.

(** the number of characters that [(?:\\q|[^q])*q] matches.  An escaped quote
    is tried before a single character; when the rest then does not match, the
    backslash is a single character, and the quote ends the match. *)
Fixpoint quoted_rest (q : ascii) (s : string) : option nat :=
  match s with
  | EmptyString => None
  | String c s' =>
      if Ascii.eqb c q then Some 1
      else if Ascii.eqb c backslash then
        match s' with
        | EmptyString => None
        | String d s'' =>
            if Ascii.eqb d q then
              match quoted_rest q s'' with Some n => Some (2 + n) | None => Some 2 end
            else option_map S (quoted_rest q s')
        end
      else option_map S (quoted_rest q s')
  end.

(** [q(?:\\q|[^q])+q]; 0 when it does not match *)
Definition quoted (q : ascii) (s : string) : nat :=
  match s with
  | String c (String d _ as s') =>
      if Ascii.eqb c q && negb (Ascii.eqb d q)
      then match quoted_rest q s' with Some n => 1 + n | None => 0 end
      else 0
  | _ => 0
  end.

(** [\w*] *)
Fixpoint word_run (s : string) : nat :=
  match s with
  | String c s' => if word_char c then 1 + word_run s' else 0
  | EmptyString => 0
  end.

(** [\d] *)
Definition digit_char (c : ascii) : bool := let n := nat_of_ascii c in Nat.leb 48 n && Nat.leb n 57.
(** [\d*] *)
Fixpoint digit_run (s : string) : nat :=
  match s with
  | String c s' => if digit_char c then 1 + digit_run s' else 0
  | EmptyString => 0
  end.

(** [.*\n]; 0 when there is no newline *)
Fixpoint line_run (s : string) : nat :=
  match s with
  | String c s' => if Ascii.eqb c newline then 1 else match line_run s' with O => 0 | n => 1 + n end
  | EmptyString => 0
  end.

Definition one_of (l : list ascii) (c : ascii) : bool := existsb (Ascii.eqb c) l.
Definition starts (c : ascii) (s : string) : bool := match s with String d _ => Ascii.eqb c d | EmptyString => false end.

(** SimpleGrammarRulesParser.py 18-31: the length of the match at the start of
    a text, or 0 *)
Definition grammar_token (s : string) : nat :=
  match s with
  | EmptyString => 0
  | String c s' =>
      if one_of ["?"; ","]%char c then 1
      else if Ascii.eqb c "-" && starts ">" s' then 2
      else if one_of ["("; ")"]%char c then 1
      else if Ascii.eqb c slash then quoted slash s
      else if Ascii.eqb c quote1 then quoted quote1 s
      else if Ascii.eqb c quote2 then quoted quote2 s
      else if word_char c then word_run s
      else if one_of ["+"; "~"]%char c then 1
      else 0
  end.

(** SimpleInferenceRuleParser.py 16-30 *)
Definition rule_token (s : string) : nat :=
  match s with
  | EmptyString => 0
  | String c s' =>
      if one_of ["."; ","; ";"]%char c then 1
      else if Ascii.eqb c ":" && starts "-" s' then 2
      else if one_of ["("; ")"]%char c then 1
      else if digit_char c then
        let n := digit_run s in
        if starts "." (drop n s) then
          match digit_run (drop (n + 1) s) with O => n | m => n + 1 + m end
        else n
      else if Ascii.eqb c quote1 then quoted quote1 s
      else if Ascii.eqb c quote2 then quoted quote2 s
      else if word_char c then word_run s
      else if Ascii.eqb c "#" then match line_run s' with O => 0 | n => 1 + n end
      else 0
  end.

(** [re.findall]; [skip] is the number of characters of the last match that
    are still to be passed *)
Fixpoint find_from (token : string -> nat) (skip : nat) (s : string) : list string :=
  match s with
  | EmptyString => []
  | String _ s' =>
      match skip with
      | S k => find_from token k s'
      | O => match token s with
             | O => find_from token 0 s'
             | S k => take (S k) s :: find_from token k s'
             end
      end
  end.
Definition findall (token : string -> nat) (s : string) : list string := find_from token 0 s.

(** [token[1:-1]] *)
Definition inside (t : string) : string := take (String.length t - 2) (drop 1 t).

(** [s.replace('\\' + q, q)] *)
Fixpoint unescape (q : ascii) (s : string) : string :=
  match s with
  | EmptyString => EmptyString
  | String c s' =>
      if Ascii.eqb c backslash then
        match s' with
        | String d s'' => if Ascii.eqb d q then String q (unescape q s'') else String c (unescape q s')
        | EmptyString => String c EmptyString
        end
      else String c (unescape q s')
  end.

(** [re.match('^\w+$', token)]; tokens have no newline at the end *)
Definition is_identifier (t : string) : bool := negb (String.eqb t "") && all_word t.
(** [re.match('^[A-Z]\w*$', token)] *)
Definition is_variable (t : string) : bool :=
  match t with
  | String c t' => let n := nat_of_ascii c in Nat.leb 65 n && Nat.leb n 90 && all_word t'
  | EmptyString => false
  end.
