(** * What a parser should do: variants of rules, derivations *)

From Coq Require Import ZArith String List Bool Arith.
From Verif Require Import Py Effects Grammar Earley.
Import ListNotations.
Local Open Scope string_scope.
Local Open Scope list_scope.

(** ** variants of a rule

    [variant first cs v]: [v] is the list [cs] without some of its optional
    parts.  An optional constituent at the start goes together with the
    separator after it, another with the separator before it. *)
Definition opt (c : constituent) : Prop := k_optional c = true.
Definition sep (c : constituent) : Prop := k_separator c = true.

(** the first part of [cs]: [first] holds at the start of the rule *)
Definition starts_with_optional_word (first : bool) (cs : list constituent) : Prop :=
  exists c l rest, cs = c :: l :: rest /\
    ((first = true /\ opt c /\ ~ sep c /\ sep l) \/ (sep c /\ opt l /\ ~ sep l)).

Inductive variant : bool -> list constituent -> list constituent -> Prop :=
| variant_nil first : variant first [] []
(** word with separator: both or none *)
| variant_keep_both first c l rest v :
    starts_with_optional_word first (c :: l :: rest) -> variant false rest v -> variant first (c :: l :: rest) (c :: l :: v)
| variant_drop_both first c l rest v :
    starts_with_optional_word first (c :: l :: rest) -> variant false rest v -> variant first (c :: l :: rest) v
(** any other constituent *)
| variant_keep first c rest v :
    ~ starts_with_optional_word first (c :: rest) -> variant false rest v -> variant first (c :: rest) (c :: v)
| variant_drop first c rest v :
    ~ starts_with_optional_word first (c :: rest) -> opt c -> variant false rest v -> variant first (c :: rest) v.

(** a variant of a rule has the meaning of the rule *)
Definition rule_variant {S} (r0 r : grule S) : Prop :=
  g_ante r = g_ante r0 /\ g_mean r = g_mean r0 /\ g_boost r = g_boost r0 /\ g_hash r = g_hash r0 /\
  variant true (g_cons r0) (g_cons r).

(** the rules a grammar stands for *)
Definition in_grammar {S} (rules : list (grule S)) (r : grule S) : Prop :=
  exists r0, In r0 rules /\ rule_variant r0 r.

(** ** derivations *)
Section Derivation.
  Context {S : Type}.
  Variable scan_mean : option string -> S.
  Variable re_match : string -> string -> outcome (option string).
  Variable G : grule S -> Prop.
  Variable text : string.

  (** same category, number of arguments and type *)
  Definition same_kind (a b : constituent) : Prop :=
    k_pred a = k_pred b /\ length (k_args a) = length (k_args b) /\ k_type a = k_type b.

  (** [w] stands at position [i] of the text *)
  Definition stands_at (i : nat) (w : string) : Prop := take (String.length w) (drop i text) = w.

  (** the rule of a leaf: for a constituent of kind [c], with the word *)
  Definition leaf_rule (c : constituent) (w : string) (m : S) (r : grule S) : Prop :=
    same_kind (g_ante r) c /\ g_mean r = m /\ g_boost r = 0%Z /\ map k_pred (g_cons r) = [w].

  (** [derives c i j t]: [t] derives the text from [i] to [j] from [c] *)
  Inductive derives : constituent -> nat -> nat -> tree -> Prop :=
  | derives_word c i w r :
      k_type c = PWord -> stands_at i w -> lower w = k_pred c ->
      leaf_rule c (k_pred c) (scan_mean None) r ->
      derives c i (i + String.length w) (Node (k_pred c) [] (k_pred c) r)
  | derives_regexp c i m w r :
      k_type c = PRegExp -> re_match (k_pred c) (drop i text) = Ok (Some m) ->
      (exists rest, m = append w rest) -> w <> "" ->
      leaf_rule c w (scan_mean (Some w)) r ->
      derives c i (i + String.length w) (Node (k_pred c) [] w r)
  | derives_rule c i j r ts :
      G r -> same_kind (g_ante r) c -> derives_all (g_cons r) i j ts ->
      derives c i j (Node (k_pred c) ts "" r)
  with derives_all : list constituent -> nat -> nat -> list tree -> Prop :=
  | derives_none i : derives_all [] i i []
  | derives_more c cs i j k t ts :
      derives c i j t -> derives_all cs j k ts -> derives_all (c :: cs) i k (t :: ts).
End Derivation.

Scheme derives_mut := Minimality for derives Sort Prop
  with derives_all_mut := Minimality for derives_all Sort Prop.
Combined Scheme derives_both from derives_mut, derives_all_mut.

(** the text at the leaves of a tree *)
Fixpoint spell {S} (t : @tree S) : string :=
  match t with
  | Node _ children form _ =>
      match children with
      | [] => form
      | _ => fold_right (fun c s => append (spell c) s) "" children
      end
  end.

(** trees that are the same but for rules with the same syntax *)
Definition same_syntax {S} (a b : grule S) : Prop :=
  g_hash a = g_hash b /\ same_kind (g_ante a) (g_ante b) /\ Forall2 same_kind (g_cons a) (g_cons b).
Inductive same_tree {S} : @tree S -> @tree S -> Prop :=
| same_leaf cat form r r' :
    same_kind (g_ante r) (g_ante r') -> g_mean r = g_mean r' ->
    same_tree (Node cat [] form r) (Node cat [] form r')
| same_node cat ts ts' form r r' :
    same_syntax r r' -> Forall2 same_tree ts ts' ->
    same_tree (Node cat ts form r) (Node cat ts' form r').
