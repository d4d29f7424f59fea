(** * Model of
      /repo/richard/processor/parser/helper/SimpleGrammarRulesParser.py and of
      /repo/richard/module/GrammarModule.py

    A list of tokens and a position are modelled by the list of tokens from
    that position.  Exceptions are modelled without the text of the rule. *)

From Coq Require Import ZArith String Ascii List Bool Arith.
From Verif Require Import Py Effects Grammar Earley Lexer.
Import ListNotations.
Local Open Scope string_scope.
Local Open Scope list_scope.
Local Open Scope outcome_scope.

(** lines 214-225 *)
Fixpoint parse_args (ts : list string) : list string * list string :=
  match ts with
  | [] => ([], [])
  | t :: rest =>
      if is_variable t then
        match rest with
        | c :: rest' =>
            if String.eqb c "," then
              match parse_args rest' with (l, r) => (t :: l, r) end
            else ([t], rest)
        | [] => ([t], [])
        end
      else ([], ts)
  end.

(** lines 202-232, 235-244 *)
Definition parse_g_atom (ts : list string) : option (constituent * list string) :=
  match ts with
  | p :: o :: rest =>
      if is_identifier p && String.eqb o "(" then
        match parse_args rest with
        | (args, c :: rest') =>
            if String.eqb c ")" then Some (mkCons p args PRelation false false, rest') else None
        | (_, []) => None
        end
      else None
  | _ => None
  end.

Definition first_char (t : string) : ascii := match t with String c _ => c | EmptyString => Ascii.zero end.

(** lines 174-183 *)
Definition parse_g_regexp (ts : list string) : option (string * list string) :=
  match ts with
  | t :: rest => if Ascii.eqb (first_char t) slash then Some (unescape slash (inside t), rest) else None
  | [] => None
  end.
(** lines 186-199 *)
Definition parse_g_string (ts : list string) : option (string * list string) :=
  match ts with
  | t :: rest =>
      if Ascii.eqb (first_char t) quote1 then Some (unescape quote1 (inside t), rest)
      else if Ascii.eqb (first_char t) quote2 then Some (unescape quote2 (inside t), rest)
      else None
  | [] => None
  end.
(** lines 247-256 *)
Definition parse_optional (ts : list string) : bool * list string :=
  match ts with
  | t :: rest => if String.eqb t "?" then (true, rest) else (false, ts)
  | [] => (false, [])
  end.

(** lines 110-142; [None] is [break] *)
Definition parse_item (write : bool) (ts : list string) : option (constituent * list string) :=
  match parse_g_atom ts with
  | Some (k, rest) =>
      if write then
        match parse_optional rest with
        | (true, rest') => Some (mkCons (k_pred k) (k_args k) (k_type k) true (k_separator k), rest')
        | (false, _) => Some (k, rest)
        end
      else Some (k, rest)
  | None =>
      let word :=
        match parse_g_string ts with
        | Some (s, rest) =>
            if String.eqb s "" then None
            else match parse_optional rest with (o, rest') => Some (mkCons s [] PWord o false, rest') end
        | None => None
        end in
      match parse_g_regexp ts with
      | Some (r, rest) => if String.eqb r "" then word else Some (mkCons r [] PRegExp false false, rest)
      | None => word
      end
  end.

(** lines 153 and 148 *)
Definition separator : constituent := mkCons " " [] PWord false true.
Definition optional_separator : constituent := mkCons " " [] PWord true true.

(** lines 108-154 *)
Fixpoint parse_consequents (n : nat) (write : bool) (ts : list string) : outcome (list constituent * list string) :=
  match n with
  | O => OutOfFuel
  | S n' =>
      match parse_item write ts with
      | None => Ok ([], ts)
      | Some (k, rest) =>
          match rest with
          | [] => Ok ([k], [])
          | t :: rest' =>
              if String.eqb t "+" then
                r <- parse_consequents n' write rest' ;; Ok (k :: fst r, snd r)
              else if String.eqb t "~" then
                r <- parse_consequents n' write rest' ;; Ok (k :: optional_separator :: fst r, snd r)
              else
                r <- parse_consequents n' write rest ;; Ok (k :: separator :: fst r, snd r)
          end
      end
  end.

(** lines 92-159 *)
Definition parse_syntax (write : bool) (syntax : string) : outcome (constituent * list constituent) :=
  let tokens := findall grammar_token syntax in
  match parse_g_atom tokens with
  | None => Exn (Raise "Could not parse antecedent")
  | Some (antecedent, arrow :: rest) =>
      if String.eqb arrow "->" then
        r <- parse_consequents (S (length rest)) write rest ;;
        match snd r with
        | [] => Ok (antecedent, fst r)
        | _ => Exn (Raise "Could not complete parsing the consequents")
        end
      else Exn (Raise "Missing -> operator")
  | Some (_, []) => Exn (Raise "Missing -> operator")
  end.

(** ** rules *)
Section Rules.
  (** the values of the keys other than [syn] and [boost] *)
  Context {V : Type}.

  (** /repo/richard/type/SimpleGrammarRule.py: a dict; other keys are not
      looked at *)
  Record simple_rule : Type := mkSimple {
    sr_syn : option string;
    sr_sem : option V;
    sr_if : option V;
    sr_exec : option V;
    sr_format : option V;
    sr_post : option V;
    sr_dialog : option V;
    sr_boost : option Z
  }.

  (** GrammarRule.py 6-30; [m_dialog] is [None] for [[]] *)
  Record meaning : Type := mkMeaning {
    m_sem : option V;
    m_exec : option V;
    m_post : option V;
    m_dialog : option V
  }.

  (** lines 54-89 *)
  Definition parse_simple_rule (r : simple_rule) (write : bool) : outcome (grule meaning) :=
    match sr_syn r with
    | None => Exn (Raise "A rule must contain a 'syn' value")
    | Some syn =>
        s <- parse_syntax write syn ;;
        let m := if write then mkMeaning (sr_if r) (sr_format r) (sr_post r) (sr_dialog r)
                 else mkMeaning (sr_sem r) (sr_exec r) None (sr_dialog r) in
        Ok (new_rule (fst s) (snd s) m (match sr_boost r with Some b => b | None => 0%Z end))
    end.

  (** lines 44-51 *)
  Definition parse_grammar (rules : list simple_rule) (write : bool) : outcome (gindex meaning) :=
    rs <- omap (fun r => parse_simple_rule r write) rules ;;
    Ok (grammar_rules rs).

  (** ** GrammarModule.py *)

  (** calling a method with positional arguments: Python counts them before
      the body runs *)
  Definition call_with {W A B} (parameters : nat) (args : list A) (body : M W B) : M W B :=
    if Nat.eqb (length args) parameters then body else throw TypeErr.

  (** what [learn_grammar_rule] passes on *)
  Inductive argument : Type := ARule (r : simple_rule) | AWrite (b : bool).

  (** [parse_simple_rule(self, simple_rule, write_rules)], called with any
      arguments *)
  Definition call_parse_simple_rule (args : list argument) : M (gindex meaning) (grule meaning) :=
    call_with 2 args
      match args with
      | [ARule r; AWrite w] => fun ix => (parse_simple_rule r w, ix)
      | _ => throw TypeErr
      end.

  (** GrammarModule.py 28-36; the state is the grammar *)
  Definition learn_grammar_rule (values : list simple_rule) : M (gindex meaning) (list (list value)) :=
    match values with
    | [] => throw IndexErr
    | simple :: _ =>
        Effects.bind (call_parse_simple_rule [ARule simple])
          (fun rule => fun ix => (Ok [[VNone]], add_rule ix rule))
    end.
End Rules.
