(** * Models of /repo/richard/module/helper/SimpleInferenceRuleParser.py and
      of [import_rules] in /repo/richard/module/InferenceModule.py

    A list of tokens and a position are modelled by the list of tokens from
    that position.  A failure is [None]; the position that is reported with
    it is not modelled.  The functions call each other without an obvious
    measure, so they have fuel. *)

From Coq Require Import ZArith QArith Qreduction String Ascii List Bool Arith.
From Coq Require Import DecimalString.
From Verif Require Import Py Effects Earley InferenceModule Lexer GrammarParser.
Import ListNotations.
Local Close Scope Q_scope.
Local Open Scope nat_scope.
Local Open Scope string_scope.
Local Open Scope list_scope.
Local Open Scope outcome_scope.

(** lines 268-277: comments are skipped *)
Fixpoint next_token (ts : list string) : option (string * list string) :=
  match ts with
  | [] => None
  | t :: rest => if Ascii.eqb (first_char t) "#" then next_token rest else Some (t, rest)
  end.

Fixpoint all_digits (s : string) : bool :=
  match s with EmptyString => true | String c s' => digit_char c && all_digits s' end.
(** [re.match('^\d+$', token)] *)
Definition is_int (t : string) : bool := negb (String.eqb t "") && all_digits t.
(** the two parts of a token that [^\d+\.\d+$] matches *)
Definition float_parts (t : string) : option (string * string) :=
  let n := digit_run t in
  let a := take n t in
  let b := drop (n + 1) t in
  if negb (String.eqb a "") && starts "." (drop n t) && is_int b then Some (a, b) else None.

(** [int(token)] for digits *)
Definition int_of_digits (t : string) : Z :=
  match NilZero.uint_of_string t with Some u => Z.of_uint u | None => 0%Z end.
(** [float(token)]; exact, see Py.v *)
Definition float_of_parts (a b : string) : Q :=
  Qred (int_of_digits (append a b) # Z.to_pos (10 ^ Z.of_nat (String.length b))).

(** [if term]: zeros, the empty text and the empty list are false *)
Definition term_true (v : value) : bool :=
  match v with
  | VInt z => negb (Z.eqb z 0)
  | VFloat q => negb (Qeq_bool q 0)
  | VStr s => negb (String.eqb s "")
  | VList [] => false
  | _ => true
  end.

(** constants.py 56 *)
Definition disjunction : string := "$disjunction".

Definition parsed (A : Type) : Type := outcome (option (A * list string)).

(** [if token != expected: return None] *)
Definition expect (t : string) (ts : list string) : option (list string) :=
  match next_token ts with
  | Some (t', rest) => if String.eqb t' t then Some rest else None
  | None => None
  end.

(** lines 88-265.  [parse_terms]: 203-215; [parse_disjuncts]: 149-162 *)
Fixpoint parse_term (n : nat) (ts : list string) : parsed value :=
  match n with
  | O => OutOfFuel
  | S n' =>
      match next_token ts with
      | None => Exn TypeErr
      | Some (t, rest) =>
          if Ascii.eqb (first_char t) quote1 then Ok (Some (VStr (unescape quote1 (inside t)), rest))
          else if Ascii.eqb (first_char t) quote2 then Ok (Some (VStr (unescape quote2 (inside t)), rest))
          else match float_parts t with
          | Some (a, b) => Ok (Some (VFloat (float_of_parts a b), rest))
          | None =>
              if is_int t then Ok (Some (VInt (int_of_digits t), rest))
              else if is_variable t then Ok (Some (VVar t, rest))
              else
                r <- parse_atoms n' ts ;;
                Ok (match r with Some (l, rest') => Some (VList l, rest') | None => None end)
          end
      end
  end
with parse_terms (n : nat) (ts : list string) : outcome (list value * list string) :=
  match n with
  | O => OutOfFuel
  | S n' =>
      r <- parse_term n' ts ;;
      match r with
      | None => Ok ([], ts)
      | Some (v, rest) =>
          if term_true v then
            match expect "," rest with
            | Some rest' => m <- parse_terms n' rest' ;; Ok (v :: fst m, snd m)
            | None => Ok ([v], rest)
            end
          else Ok ([], ts)
      end
  end
with parse_simple_atom (n : nat) (ts : list string) : parsed (list value) :=
  match n with
  | O => OutOfFuel
  | S n' =>
      match next_token ts with
      | None => Ok None
      | Some (p, rest) =>
          if is_identifier p then
            match expect "(" rest with
            | None => Ok None
            | Some rest' =>
                r <- parse_terms n' rest' ;;
                Ok (match expect ")" (snd r) with Some rest'' => Some (VStr p :: fst r, rest'') | None => None end)
            end
          else Ok None
      end
  end
with parse_atom (n : nat) (ts : list string) : parsed value :=
  match n with
  | O => OutOfFuel
  | S n' =>
      r <- parse_simple_atom n' ts ;;
      match r with
      | Some (l, rest) => Ok (Some (VTuple l, rest))
      | None => parse_disjuncted_atom n' ts
      end
  end
with parse_disjuncted_atom (n : nat) (ts : list string) : parsed value :=
  match n with
  | O => OutOfFuel
  | S n' =>
      match expect "(" ts with
      | None => Ok None
      | Some rest =>
          r <- parse_disjuncts n' rest ;;
          Ok (match r with
              | Some (ds, rest') =>
                  match expect ")" rest' with
                  | Some rest'' => Some (VTuple [VStr disjunction; VList ds], rest'')
                  | None => None
                  end
              | None => None
              end)
      end
  end
with parse_disjuncts (n : nat) (ts : list string) : parsed (list value) :=
  match n with
  | O => OutOfFuel
  | S n' =>
      r <- parse_atoms n' ts ;;
      match r with
      | None => Ok None
      | Some (l, rest) =>
          match expect ";" rest with
          | Some rest' =>
              m <- parse_disjuncts n' rest' ;;
              Ok (match m with Some (ds, rest'') => Some (VList l :: ds, rest'') | None => None end)
          | None => Ok (Some ([VList l], rest))
          end
      end
  end
with parse_atoms (n : nat) (ts : list string) : parsed (list value) :=
  match n with
  | O => OutOfFuel
  | S n' =>
      r <- parse_grouped_atoms n' ts ;;
      match r with
      | Some x => Ok (Some x)
      | None => parse_ungrouped_atoms n' ts
      end
  end
with parse_grouped_atoms (n : nat) (ts : list string) : parsed (list value) :=
  match n with
  | O => OutOfFuel
  | S n' =>
      match expect "(" ts with
      | None => Ok None
      | Some rest =>
          r <- parse_atoms n' rest ;;
          Ok (match r with
              | Some (l, rest') => match expect ")" rest' with Some rest'' => Some (l, rest'') | None => None end
              | None => None
              end)
      end
  end
with parse_ungrouped_atoms (n : nat) (ts : list string) : parsed (list value) :=
  match n with
  | O => OutOfFuel
  | S n' =>
      r <- parse_atom n' ts ;;
      match r with
      | None => Ok None
      | Some (a, rest) =>
          match expect "," rest with
          | Some rest' =>
              m <- parse_ungrouped_atoms n' rest' ;;
              Ok (match m with Some (l, rest'') => Some (a :: l, rest'') | None => None end)
          | None => Ok (Some ([a], rest))
          end
      end
  end.

(** lines 60-82 *)
Definition parse_rule (n : nat) (ts : list string) : parsed rule :=
  h <- parse_simple_atom n ts ;;
  match h with
  | None => Ok None
  | Some (head, rest) =>
      body <- match expect ":-" rest with
              | Some rest' => parse_atoms n rest'
              | None => Ok (Some ([], rest))
              end ;;
      Ok (match body with
          | Some (b, rest') =>
              match expect "." rest' with
              | Some rest'' => Some (mkRule head (VList b), rest'')
              | None => None
              end
          | None => None
          end)
  end.

(** lines 43-49; [m]: the number of rules that may be read *)
Fixpoint parse_rule_list (n m : nat) (ts : list string) : outcome (list rule * list string) :=
  match m with
  | O => OutOfFuel
  | S m' =>
      r <- parse_rule n ts ;;
      match r with
      | None => Ok ([], ts)
      | Some (ru, rest) => x <- parse_rule_list n m' rest ;; Ok (ru :: fst x, snd x)
      end
  end.

(** lines 37-56, 280-285; [None]: the text cannot be parsed *)
Definition parse_rules (n : nat) (text : string) : outcome (option (list rule)) :=
  r <- parse_rule_list n n (findall rule_token text) ;;
  Ok (match next_token (snd r) with None => Some (fst r) | Some _ => None end).

Section Import.
  Context {W : Type}.
  Variable L : lens W rulebase.
  Local Open Scope monad_scope.

  Fixpoint insert_rules (l : list rule) : M W unit :=
    match l with
    | [] => ret tt
    | r :: rest => Effects.bind (insert_rule L r) (fun _ => insert_rules rest)
    end.
  (** InferenceModule.py 33-41; [text] is the content of the file *)
  Definition import_rules (n : nat) (text : string) : M W unit :=
    match parse_rules n text with
    | Ok (Some rules) => insert_rules rules
    | Ok None => throw (Raise "Unable to parse inference")
    | Exn e => throw e
    | OutOfFuel => fun w => (OutOfFuel, w)
    end.
End Import.
