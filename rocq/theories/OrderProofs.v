(** * The model's [==] and [<] are the equality and order of [OrderSpec] *)

From Coq Require Import ZArith QArith String List Bool Lia Arith Ascii.
From Verif Require Import Py PyFacts CoreSpec CoreProofs2 OrderSpec.
Import ListNotations.
Local Close Scope Q_scope.
Local Open Scope string_scope.
Local Open Scope nat_scope.
Local Open Scope list_scope.

Lemma stands_num v q : num_of v = Some q <-> stands_for v q.
Proof.
  split; [|intros []; reflexivity].
  destruct v as [| b | | | | | | | |]; try discriminate; [destruct b| |]; intros [= <-]; constructor.
Qed.

Lemma eq_same v1 : forall v2, py_eq v1 v2 = true <-> same v1 v2.
Proof.
  assert (Seq : forall l, Forall (fun v => forall v2, py_eq v v2 = true <-> same v v2) l ->
    forall m, forall2b py_eq l m = true <-> Forall2 same l m).
  { induction l as [|x l IH]; intros HF [|y m]; cbn [forall2b].
    - split; [constructor|reflexivity].
    - split; [discriminate|]. intros H; inversion H.
    - split; [discriminate|]. intros H; inversion H.
    - inversion HF as [|? ? Hx Hl]; subst. rewrite andb_true_iff, (Hx y), (IH Hl m). split.
      + intros (H1 & H2). now constructor.
      + intros H; inversion H; subst. now split. }
  assert (Num : forall v1 v2 q, stands_for v1 q -> 
    (match num_of v1, num_of v2 with Some p, Some q => Qeq_bool p q | _, _ => false end = true <-> same v1 v2)).
  { intros u1 u2 q E. apply stands_num in E. rewrite E. split.
    - destruct (num_of u2) as [q2|] eqn:E2; [|discriminate]. intros H. apply (same_num _ _ q q2); [now apply stands_num|now apply stands_num|now apply Qeq_bool_iff].
    - intros H. inversion H as [|? ? q1 q2 N1 N2 Hq| | | | | |]; subst; try discriminate.
      apply stands_num in N1, N2. rewrite N2. rewrite N1 in E. injection E as <-. now apply Qeq_bool_iff. }
  induction v1 using value_ind'; intros v2.
  - destruct v2; cbn; split; intros H; try discriminate; try constructor; try reflexivity; inversion H as [|? ? q1 q2 N1| | | | | |]; subst; try discriminate; inversion N1.
  - apply (Num (VBool b) v2 (if b then 1 else 0)%Q). destruct b; constructor.
  - apply (Num (VInt z) v2 (inject_Z z)). constructor.
  - apply (Num (VFloat q) v2 q). constructor.
  - split.
    + cbn. destruct v2; try discriminate. intros E. apply String.eqb_eq in E as ->. constructor.
    + intros H. inversion H as [|? ? ? ? N| | | | | |]; subst; [inversion N|]. apply String.eqb_refl.
  - split.
    + cbn. destruct v2; try discriminate. intros E. apply String.eqb_eq in E as ->. constructor.
    + intros H. inversion H as [|? ? ? ? N| | | | | |]; subst; [inversion N|]. apply String.eqb_refl.
  - split.
    + cbn. destruct v2; try discriminate. intros E. apply String.eqb_eq in E as ->. constructor.
    + intros H. inversion H as [|? ? ? ? N| | | | | |]; subst; [inversion N|]. apply String.eqb_refl.
  - split.
    + destruct v2; try discriminate. rewrite py_eq_tuple. intros E. constructor. now apply Seq.
    + intros Hd. inversion Hd as [|? ? ? ? N| | | | | |]; subst; [inversion N|]. rewrite py_eq_tuple. now apply Seq.
  - split.
    + destruct v2; try discriminate. rewrite py_eq_list. intros E. constructor. now apply Seq.
    + intros Hd. inversion Hd as [|? ? ? ? N| | | | | |]; subst; [inversion N|]. rewrite py_eq_list. now apply Seq.
  - split.
    + destruct v2; try discriminate. rewrite py_eq_tmpl. intros E. apply andb_true_iff in E as (E1 & E2). constructor; now apply Seq.
    + intros Hd. inversion Hd as [|? ? ? ? N| | | | | |]; subst; [inversion N|]. rewrite py_eq_tmpl. apply andb_true_iff. split; now apply Seq.
Qed.
Lemma eq_not_same v1 v2 : py_eq v1 v2 = false <-> ~ same v1 v2.
Proof. rewrite <- eq_same. destruct (py_eq v1 v2); intuition congruence. Qed.

Lemma text_before_iff s : forall t, str_lt s t = true <-> text_before s t.
Proof.
  induction s as [|a s IH]; intros [|c t]; cbn [str_lt].
  - split; [discriminate|]. intros (p & s' & t' & E1 & E2 & H). destruct p; [|discriminate]. cbn in *. subst. destruct H.
  - split; [|reflexivity]. intros _. exists "", "", (String c t). now repeat split.
  - split; [discriminate|]. intros (p & s' & t' & E1 & E2 & H). destruct p; [|discriminate]. cbn in *. subst. destruct H.
  - destruct (Ascii.eqb_spec a c) as [->|N].
    + rewrite IH. split; intros (p & s' & t' & E1 & E2 & H).
      * exists (String c p), s', t'. subst. now repeat split.
      * destruct p as [|d p]; cbn in E1, E2.
        -- subst. lia.
        -- injection E1 as <- E1. injection E2 as E2. exists p, s', t'. auto.
    + rewrite Nat.ltb_lt. split.
      * intros H. exists "", (String a s), (String c t). now repeat split.
      * intros (p & s' & t' & E1 & E2 & H). destruct p as [|d p]; cbn in E1, E2; [subst; exact H|]. congruence.
Qed.

Lemma decided_lt v1 : forall v2 r, py_lt v1 v2 = Some r <-> decided v1 v2 r.
Proof.
  assert (Num : forall v1 v2 r q, num_of v1 = Some q ->
    (match num_of v1, num_of v2 with Some p, Some q => Some (Qlt_bool p q) | _, _ => None end = Some r <-> decided v1 v2 r)).
  { intros u1 u2 r q E. rewrite E. split.
    - destruct (num_of u2) as [q2|] eqn:E2; [|discriminate]. intros [= <-]. apply (dec_num _ _ q q2); [now apply stands_num|now apply stands_num|apply Qlt_bool_iff].
    - intros H. destruct H as [u1 u2 q1 q2 r N1 N2 Hr|? ? ? ?|? ? ? ?|? ? ? ?]; try discriminate.
      apply stands_num in N1, N2. rewrite N2. rewrite N1 in E. injection E as <-. f_equal. rewrite <- Qlt_bool_iff in Hr. destruct r, (Qlt_bool q1 q2); intuition congruence. }
  set (lts := fix lts (l m : list value) {struct l} : option bool :=
    match l, m with
    | [], [] => Some false
    | [], _ :: _ => Some true
    | _ :: _, [] => Some false
    | x :: l', y :: m' => if py_eq x y then lts l' m' else py_lt x y
    end).
  assert (Seq : forall l, Forall (fun v => forall v2 r, py_lt v v2 = Some r <-> decided v v2 r) l ->
    forall m r, lts l m = Some r <-> sequence_decided l m r).
  { induction l as [|x l IH]; intros HF [|y m] r; cbn.
    - split; [intros [= <-]; constructor|]. intros H. inversion H. reflexivity.
    - split; [intros [= <-]; constructor|]. intros H. inversion H. reflexivity.
    - split; [intros [= <-]; constructor|]. intros H. inversion H. reflexivity.
    - inversion HF as [|? ? Hx Hl]; subst. destruct (py_eq x y) eqn:E.
      + fold lts. rewrite (IH Hl m r). split; [intros H; apply seq_equal; [now apply eq_same|exact H]|]. intros H. inversion H as [| | |? ? ? ? ? Hs Hd|? ? ? ? ? Hs Hd]; subst; [exact Hd|]. apply eq_not_same in Hs. congruence.
      + rewrite (Hx y r). split; [intros H; apply seq_differ; [now apply eq_not_same|exact H]|]. intros H. inversion H as [| | |? ? ? ? ? Hs Hd|? ? ? ? ? Hs Hd]; subst; [apply eq_same in Hs; congruence|exact Hd]. }
  induction v1 using value_ind'; intros v2 r.
  all: try (split; [discriminate|intros Hd; inversion Hd as [? ? ? ? ? N| | |]; subst; inversion N]).
  - apply (Num (VBool b) v2 r _ eq_refl).
  - apply (Num (VInt z) v2 r _ eq_refl).
  - apply (Num (VFloat q) v2 r _ eq_refl).
  - split.
    + cbn. destruct v2; try discriminate. intros [= <-]. constructor. apply text_before_iff.
    + intros Hd. inversion Hd as [? ? ? ? ? N| | |]; subst; [inversion N|]. cbn. f_equal. rewrite <- text_before_iff in *. destruct r, (str_lt s t); intuition congruence.
  - change (match v2 with VTuple m => lts l m | _ => None end = Some r <-> decided (VTuple l) v2 r). split.
    + destruct v2; try discriminate. intros E. constructor. now apply Seq.
    + intros Hd. inversion Hd as [? ? ? ? ? N| | |]; subst; [inversion N|]. now apply Seq.
  - change (match v2 with VList m => lts l m | _ => None end = Some r <-> decided (VList l) v2 r). split.
    + destruct v2; try discriminate. intros E. constructor. now apply Seq.
    + intros Hd. inversion Hd as [? ? ? ? ? N| | |]; subst; [inversion N|]. now apply Seq.
Qed.
