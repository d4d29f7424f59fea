(** * The notation of inference rules, independent of the parser

    Written rules as trees, with everything that may be written in more than
    one way: the kind of quotes, leading zeros, brackets around a list of
    atoms. *)

From Coq Require Import ZArith QArith Qreduction String Ascii List Bool Arith.
From Verif Require Import Py InferenceModule Lexer LexerProofs InferenceRuleParser RuleParserProofs RuleParserProofs3.
Import ListNotations.
Local Close Scope Q_scope.
Local Open Scope nat_scope.
Local Open Scope string_scope.
Local Open Scope list_scope.

Inductive node : Type :=
| NStr (q : ascii) (s : string)         (* text between [q] *)
| NInt (digits : string)
| NFloat (whole fraction : string)
| NVar (v : string)
| NGroup (brackets : nat) (l : list node)  (* a list of atoms *)
| NAtom (p : string) (args : list node)
| NOr (ds : list node).                 (* [(a; b)] *)

Fixpoint sep (s : string) (ls : list (list string)) : list string :=
  match ls with
  | [] => []
  | [x] => x
  | x :: rest => x ++ s :: sep s rest
  end.

(** how it is written *)
Fixpoint toks (x : node) : list string :=
  match x with
  | NStr q s => [in_quotes q s]
  | NInt d => [d]
  | NFloat a b => [append a (append "." b)]
  | NVar v => [v]
  | NGroup k l => repeat "(" k ++ sep "," (map toks l) ++ repeat ")" k
  | NAtom p args => p :: "(" :: sep "," (map toks args) ++ [")"]
  | NOr ds => "(" :: sep ";" (map toks ds) ++ [")"]
  end.

(** what it means *)
Fixpoint denote (x : node) : value :=
  match x with
  | NStr _ s => VStr s
  | NInt d => VInt (digits_value 0 d)
  | NFloat a b => VFloat (Qred (inject_Z (digits_value 0 a) + inject_Z (digits_value 0 b) / inject_Z (10 ^ Z.of_nat (String.length b))))
  | NVar v => VVar v
  | NGroup _ l => VList (map denote l)
  | NAtom p args => VTuple (VStr p :: map denote args)
  | NOr ds => VTuple [VStr "$disjunction"; VList (map denote ds)]
  end.

(** a list of atoms without brackets takes the comma after it for its own, and
    begins with what could be a variable *)
Definition bare (x : node) : Prop := match x with NGroup O _ => True | _ => False end.
Definition plain_start (x : node) : Prop :=
  match x with NGroup O (NAtom p _ :: _) => is_variable p = false | _ => True end.

(** what may be written *)
Inductive wf_term : node -> Prop :=
| wf_str q s : q = quote1 \/ q = quote2 -> s <> "" -> ends_with backslash s = false -> wf_term (NStr q s)
| wf_int d : is_int d = true -> digits_value 0 d <> 0%Z -> wf_term (NInt d)
| wf_float a b : is_int a = true -> is_int b = true -> ~ (digits_value 0 a = 0%Z /\ digits_value 0 b = 0%Z) -> wf_term (NFloat a b)
| wf_var v : is_variable v = true -> wf_term (NVar v)
| wf_list x : wf_group x -> plain_start x -> wf_term x
with wf_group : node -> Prop :=
| wf_grp k l : l <> [] -> Forall wf_atom l -> wf_group (NGroup k l)
with wf_atom : node -> Prop :=
| wf_simple p args : r_word p -> wf_args args -> wf_atom (NAtom p args)
| wf_or d1 d2 ds : Forall wf_group (d1 :: d2 :: ds) -> wf_atom (NOr (d1 :: d2 :: ds))
with wf_args : list node -> Prop :=
| wf_none : wf_args []
| wf_last x : wf_term x -> wf_args [x]
| wf_more x y l : wf_term x -> ~ bare x -> wf_args (y :: l) -> wf_args (x :: y :: l).

(** a rule: a head, and the atoms of the body *)
Record srule : Type := mkS { s_pred : string; s_args : list node; s_body : option node }.
Definition rule_toks (r : srule) : list string :=
  toks (NAtom (s_pred r) (s_args r)) ++ match s_body r with Some b => ":-" :: toks b | None => [] end ++ ["."].
Definition rule_denote (r : srule) : rule :=
  mkRule (VStr (s_pred r) :: map denote (s_args r)) (match s_body r with Some b => denote b | None => VList [] end).
Definition wf_rule (r : srule) : Prop :=
  wf_atom (NAtom (s_pred r) (s_args r)) /\ match s_body r with Some b => wf_group b | None => True end.

(** tokens with a space after each *)
Fixpoint spaced (ts : list string) : string :=
  match ts with [] => "" | t :: rest => append t (String " " (spaced rest)) end.

(** ** writing values *)
Fixpoint node_of (v : value) : node :=
  match v with
  | VStr s => NStr quote1 s
  | VInt z => NInt (repr_Z z)
  | VVar x => NVar x
  | VList l => NGroup 1 (map node_of l)
  | VTuple (VStr p :: l) =>
      if String.eqb p "$disjunction" then match l with [VList ds] => NOr (map node_of ds) | _ => NOr [] end
      else NAtom p (map node_of l)
  | _ => NOr []
  end.
Inductive writable_term : value -> Prop :=
| wr_str s : s <> "" -> ends_with backslash s = false -> writable_term (VStr s)
| wr_int z : (0 < z)%Z -> writable_term (VInt z)
| wr_var x : is_variable x = true -> writable_term (VVar x)
| wr_list l : writable_atoms l -> writable_term (VList l)
with writable_atoms : list value -> Prop :=
| wr_atoms l : l <> [] -> Forall writable_atom l -> writable_atoms l
with writable_atom : value -> Prop :=
| wr_simple p l : r_word p -> Forall writable_term l -> writable_atom (VTuple (VStr p :: l))
| wr_or d1 d2 ds : Forall (fun d => exists l, d = VList l /\ writable_atoms l) (d1 :: d2 :: ds) ->
    writable_atom (VTuple [VStr "$disjunction"; VList (d1 :: d2 :: ds)]).
Definition writable_rule (r : rule) : Prop :=
  (exists p l, ru_head r = VStr p :: l /\ r_word p /\ Forall writable_term l) /\
  (exists l, ru_body r = VList l /\ Forall writable_atom l).
Definition source_of (r : rule) : srule :=
  match ru_head r with
  | VStr p :: l => mkS p (map node_of l) (match ru_body r with VList [] => None | VList b => Some (NGroup 0 (map node_of b)) | _ => None end)
  | _ => mkS "" [] None
  end.
(** the text of a rule file *)
Definition write_rules (l : list rule) : string := spaced (flat_map (fun r => rule_toks (source_of r)) l).
