(** * What follows from what the Cooper system has been taught

    This is independent of how the system is made: there are qualities, things,
    facts and rules, and a relation that says what follows from them. *)

From Coq Require Import ZArith String List Bool.
From Verif Require Import Py.
Import ListNotations.
Local Open Scope string_scope.
Local Open Scope list_scope.

(** who a rule is about: anyone (with the name of the variable), or a single thing *)
Inductive subject : Type := Anyone (x : string) | Just (e : string).
Definition about (s : subject) (e : string) : Prop := match s with Anyone _ => True | Just e' => e' = e end.

(** a rule: when all conditions are true of the subject, it is [ta_truth] that the
    subject has the quality *)
Record taught : Type := mkTaught { ta_quality : string; ta_subject : subject; ta_truth : bool; ta_conditions : list string }.

(** [facts q]: of which things is it known whether they have quality [q] *)
Section Follows.
  Variable facts : string -> list (string * bool).
  Variable rules : list taught.

  (** that it is [v] that [e] has quality [q] *)
  Inductive follows (e : string) : string -> bool -> Prop :=
  | told q v : In (e, v) (facts q) -> follows e q v
  | concluded r : In r rules -> about (ta_subject r) e ->
      (forall c, In c (ta_conditions r) -> follows e c true) -> follows e (ta_quality r) (ta_truth r).

  (** the rules do not go round in circles *)
  Definition well_founded_rules (rank : string -> bool -> nat) : Prop :=
    forall r c, In r rules -> In c (ta_conditions r) -> rank c true < rank (ta_quality r) (ta_truth r).
End Follows.

(** the answer to whether [e] has quality [q], when [v] is what makes it true *)
Inductive reply_to (facts : string -> list (string * bool)) (rules : list taught) (e q : string) (v : bool) : string -> Prop :=
| so : follows facts rules e q v -> reply_to facts rules e q v "True"
| not_so : ~ follows facts rules e q v -> follows facts rules e q (negb v) -> reply_to facts rules e q v "False"
| not_known : ~ follows facts rules e q true -> ~ follows facts rules e q false -> reply_to facts rules e q v "Unable to answer".

(** there is one reply only *)
Lemma one_reply facts rules e q v r1 r2 : reply_to facts rules e q v r1 -> reply_to facts rules e q v r2 -> r1 = r2.
Proof. intros [] []; try reflexivity; destruct v; cbn [negb] in *; contradiction. Qed.

(** being told that [e] has quality [q]: what was known before stays *)
Definition tell (e q : string) (v : bool) (facts : string -> list (string * bool)) : string -> list (string * bool) :=
  fun q' => if String.eqb q' q then (if existsb (fun f => String.eqb (fst f) e) (facts q) then facts q else facts q ++ [(e, v)]) else facts q'.
