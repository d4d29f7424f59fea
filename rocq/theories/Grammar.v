(** * Models of /repo/richard/entity/RuleConstituent.py,
      /repo/richard/entity/GrammarRule.py and
      /repo/richard/entity/GrammarRules.py

    What a rule means ([sem], [exec], [post], [dialog]) is different for
    reading and writing grammars; it is the payload [S].  The hash of a
    constituent or rule is modelled by what is hashed, so hash collisions
    are not modelled. *)

From Coq Require Import ZArith String List Bool.
From Verif Require Import Py.
Import ListNotations.
Local Open Scope string_scope.
Local Open Scope list_scope.

(** /repo/richard/core/constants.py 18-20 *)
Inductive ptype : Type := PRelation | PWord | PRegExp.
Definition ptype_eqb (a b : ptype) : bool :=
  match a, b with PRelation, PRelation | PWord, PWord | PRegExp, PRegExp => true | _, _ => false end.

(** RuleConstituent.py 6-20 *)
Record constituent : Type := mkCons {
  k_pred : string;
  k_args : list string;
  k_type : ptype;
  k_optional : bool;
  k_separator : bool
}.

(** RuleConstituent.py 22-23: what is hashed *)
Definition chash : Type := (list string * (string * ptype))%type.
Definition cons_hash (k : constituent) : chash := (k_args k, (k_pred k, k_type k)).

(** RuleConstituent.py 26-36 *)
Definition cons_equals (a b : constituent) : bool :=
  String.eqb (k_pred a) (k_pred b) &&
  Nat.eqb (length (k_args a)) (length (k_args b)) &&
  ptype_eqb (k_type a) (k_type b).

(** GrammarRule.py 6-33 *)
Record grule (S : Type) : Type := mkGRule {
  g_ante : constituent;
  g_cons : list constituent;
  g_mean : S;
  g_boost : Z;
  g_hash : list chash
}.
Arguments mkGRule {S}.
Arguments g_ante {S}.
Arguments g_cons {S}.
Arguments g_mean {S}.
Arguments g_boost {S}.
Arguments g_hash {S}.

(** GrammarRule.py 32-33 *)
Definition rule_hash (ante : constituent) (cons : list constituent) : list chash :=
  map cons_hash cons ++ [cons_hash ante].
(** GrammarRule.py 18-33 *)
Definition new_rule {S} (ante : constituent) (cons : list constituent) (m : S) (boost : Z) : grule S :=
  mkGRule ante cons m boost (rule_hash ante cons).

(** GrammarRule.py 36-48 *)
Fixpoint all_equal (a b : list constituent) : bool :=
  match a, b with
  | [], [] => true
  | x :: a', y :: b' => cons_equals x y && all_equal a' b'
  | _, _ => false
  end.
Definition rule_equals {S T} (a : grule S) (b : grule T) : bool :=
  cons_equals (g_ante a) (g_ante b) && all_equal (g_cons a) (g_cons b).

(** comparing hashes *)
Definition strings_eqb (a b : list string) : bool := if list_eq_dec string_dec a b then true else false.
Definition chash_eqb (a b : chash) : bool :=
  strings_eqb (fst a) (fst b) && String.eqb (fst (snd a)) (fst (snd b)) && ptype_eqb (snd (snd a)) (snd (snd b)).
Fixpoint hash_eqb (a b : list chash) : bool :=
  match a, b with
  | [], [] => true
  | x :: a', y :: b' => chash_eqb x y && hash_eqb a' b'
  | _, _ => false
  end.

(** ** variants *)

(** GrammarRules.py 55-81: the loop over the consequents.  [first]:
    [index == 0].  When a constituent and its look-ahead are taken together
    the next one starts after both. *)
Fixpoint variants_rest (first : bool) (cons : list constituent) (variants : list (list constituent))
    : list (list constituent) :=
  match cons with
  | [] => variants
  | c :: rest =>
      match rest with
      | l :: rest' =>
          if first && k_optional c && negb (k_separator c) && k_separator l then
            variants_rest false rest' (map (fun v => v ++ [c; l]) variants ++ variants)
          else if k_separator c && k_optional l && negb (k_separator l) then
            variants_rest false rest' (map (fun v => v ++ [c; l]) variants ++ variants)
          else if k_optional c then
            variants_rest false rest (map (fun v => v ++ [c]) variants ++ variants)
          else variants_rest false rest (map (fun v => v ++ [c]) variants)
      | [] =>
          if k_optional c then map (fun v => v ++ [c]) variants ++ variants
          else map (fun v => v ++ [c]) variants
      end
  end.

(** GrammarRules.py 43-52: [copy.copy] keeps the hash of the full rule *)
Definition create_rule_variants {S} (r : grule S) : list (grule S) :=
  map (fun cs => mkGRule (g_ante r) cs (g_mean r) (g_boost r) (g_hash r)) (variants_rest true (g_cons r) [[]]).

(** ** the index *)

(** GrammarRules.py 7: category, then number of arguments, then rules *)
Definition gindex (S : Type) : Type := list (string * list (nat * list (grule S))).

Fixpoint counts_get {S} (n : nat) (l : list (nat * list (grule S))) : option (list (grule S)) :=
  match l with
  | [] => None
  | (k, rs) :: rest => if Nat.eqb n k then Some rs else counts_get n rest
  end.
Fixpoint counts_put {S} (n : nat) (rs : list (grule S)) (l : list (nat * list (grule S))) : list (nat * list (grule S)) :=
  match l with
  | [] => [(n, rs)]
  | (k, rs') :: rest => if Nat.eqb n k then (k, rs) :: rest else (k, rs') :: counts_put n rs rest
  end.
Fixpoint index_get {S} (c : string) (ix : gindex S) : option (list (nat * list (grule S))) :=
  match ix with
  | [] => None
  | (k, l) :: rest => if String.eqb c k then Some l else index_get c rest
  end.
Fixpoint index_put {S} (c : string) (l : list (nat * list (grule S))) (ix : gindex S) : gindex S :=
  match ix with
  | [] => [(c, l)]
  | (k, l') :: rest => if String.eqb c k then (k, l) :: rest else (k, l') :: index_put c l rest
  end.

(** GrammarRules.py 16-27 *)
Definition add_rule {S} (ix : gindex S) (r : grule S) : gindex S :=
  let c := k_pred (g_ante r) in
  let n := length (k_args (g_ante r)) in
  let l := match index_get c ix with Some l => l | None => [] end in
  let rs := match counts_get n l with Some rs => rs | None => [] end in
  index_put c (counts_put n (rs ++ create_rule_variants r) l) ix.

(** GrammarRules.py 10-13 *)
Definition grammar_rules {S} (rules : list (grule S)) : gindex S := fold_left add_rule rules [].

(** GrammarRules.py 30-34 *)
Definition find_rules {S} (ix : gindex S) (c : string) (n : nat) : list (grule S) :=
  match index_get c ix with
  | Some l => match counts_get n l with Some rs => rs | None => [] end
  | None => []
  end.

(** GrammarRules.py 36-40: the keys *)
Definition find_argument_counts {S} (ix : gindex S) (c : string) : list nat :=
  match index_get c ix with Some l => map fst l | None => [] end.
