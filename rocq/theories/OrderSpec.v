(** * Specification: equality and order of Python values

    Independent of the model's functions for [==] and [<]. *)

From Coq Require Import ZArith QArith String List Bool Ascii.
From Verif Require Import Py.
Import ListNotations.
Local Close Scope Q_scope.
Local Open Scope nat_scope.
Local Open Scope list_scope.

(** the number that a value stands for; True is 1 and False is 0 *)
Inductive stands_for : value -> Q -> Prop :=
| of_true : stands_for (VBool true) 1
| of_false : stands_for (VBool false) 0
| of_int z : stands_for (VInt z) (inject_Z z)
| of_float q : stands_for (VFloat q) q.

(** equal values: numbers by their value, sequences item by item *)
Inductive same : value -> value -> Prop :=
| same_none : same VNone VNone
| same_num v1 v2 q1 q2 : stands_for v1 q1 -> stands_for v2 q2 -> (q1 == q2)%Q -> same v1 v2
| same_text s : same (VStr s) (VStr s)
| same_var x : same (VVar x) (VVar x)
| same_reified x : same (VReif x) (VReif x)
| same_tuple l m : Forall2 same l m -> same (VTuple l) (VTuple m)
| same_list l m : Forall2 same l m -> same (VList l) (VList m)
| same_template a b c d : Forall2 same a c -> Forall2 same b d -> same (VTmpl a b) (VTmpl c d).

(** the strict order of texts, of numbers and of sequences *)
Definition text_before (s t : string) : Prop :=
  exists p s' t', s = (p ++ s')%string /\ t = (p ++ t')%string /\
    match s', t' with
    | EmptyString, String _ _ => True
    | String a _, String c _ => nat_of_ascii a < nat_of_ascii c
    | _, _ => False
    end.

(** it is decided that [v1] is before [v2], or that it is not *)
Inductive decided : value -> value -> bool -> Prop :=
| dec_num v1 v2 q1 q2 r : stands_for v1 q1 -> stands_for v2 q2 ->
    (r = true <-> (q1 < q2)%Q) -> decided v1 v2 r
| dec_text s t r : (r = true <-> text_before s t) -> decided (VStr s) (VStr t) r
| dec_tuple l m r : sequence_decided l m r -> decided (VTuple l) (VTuple m) r
| dec_list l m r : sequence_decided l m r -> decided (VList l) (VList m) r
(** sequences by the first items that are not equal, or else the shorter one is before *)
with sequence_decided : list value -> list value -> bool -> Prop :=
| seq_same : sequence_decided [] [] false
| seq_shorter y m : sequence_decided [] (y :: m) true
| seq_longer x l : sequence_decided (x :: l) [] false
| seq_equal x y l m r : same x y -> sequence_decided l m r -> sequence_decided (x :: l) (y :: m) r
| seq_differ x y l m r : ~ same x y -> decided x y r -> sequence_decided (x :: l) (y :: m) r.

