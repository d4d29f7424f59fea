(** * Cooper: from the words of a question to the atoms that are executed *)

From Coq Require Import ZArith String Ascii List Bool Arith Lia.
From Verif Require Import Py ReprProofs Effects Grammar Earley Composer Atoms FragmentModel CooperModel Optimizer WordReading WordReading2 WordReading3 WordReading4 CooperProofs CooperProofs3 CooperProofs4.
Import ListNotations.
Local Open Scope nat_scope.
Local Open Scope string_scope.
Local Open Scope list_scope.

(** ** the numbers in the names of variables *)
Definition var (k : nat) : string := String "$" (repr_Z (Z.of_nat k)).
Lemma num_form k : exists a s, repr_Z (Z.of_nat k) = String a s.
Proof. destruct (repr_Z (Z.of_nat k)) as [|a s] eqn:E; [now apply repr_Z_nonempty in E|eauto]. Qed.

Definition rules1 : list crule := Eval vm_compute in variants_of grammar1.
Definition rules2 : list crule := Eval vm_compute in variants_of grammar2.
Lemma rules1_eq : variants_of grammar1 = rules1.
Proof. vm_compute. reflexivity. Qed.
Lemma rules2_eq : variants_of grammar2 = rules2.
Proof. vm_compute. reflexivity. Qed.

(** the rule for a word that names a quality *)
Definition noun_rule (kind w q : string) : crule :=
  mkGRule (phrase kind ["E1"; "T1"]) [quoted w]
    (mkMeaning (Some (fun x => match x with [] => Ok (VList [VTuple [VStr q; VVar "E1"; VVar "T1"]]) | _ => Exn TypeErr end)) None (DAtoms []))
    0 [([], (w, PWord)); (["E1"; "T1"], (kind, PRelation))].
Definition art_rule (w : string) : crule :=
  mkGRule (phrase "a" []) [quoted w]
    (mkMeaning (Some (fun x => match x with [] => Ok (VList []) | _ => Exn TypeErr end)) None (DAtoms []))
    0 [([], (w, PWord)); ([], ("a", PRelation))].

(** ** what the parts of the optimizer do with atoms about variables that differ *)
Lemma isolate_step n head rest roots : isolate_from (S n) (head :: rest) roots =
  obind (collect_batches rest (atom_variables head)) (fun batches =>
  obind (omap (fun b => if share (b_variables b) roots then Ok (b_atoms b)
            else obind (isolate_from n (b_atoms b) []) (fun recursed => Ok [VTuple [VStr "scoped"; VList recursed]])) batches) (fun parts =>
  Ok (head :: concat parts))).
Proof. reflexivity. Qed.
Lemma stabilize_step n c : stabilize (S n) c = let new := merge_batches c in if Nat.eqb (length new) (length c) then Ok c else stabilize n new.
Proof. reflexivity. Qed.

#[local] Arguments String.eqb : simpl never.
Ltac closed_eqs := repeat match goal with |- context [String.eqb ?a ?b] => let v := eval vm_compute in (String.eqb a b) in match v with true => idtac | false => idtac end; change (String.eqb a b) with v end.
Ltac eqs := repeat match goal with H : String.eqb _ _ = false |- _ => rewrite H end; rewrite ?String.eqb_refl; closed_eqs.
Ltac to t tac := let H := fresh "T" in eassert (H : t = _) by (tac; reflexivity); rewrite H; clear H.
Ltac batches := unfold collect_batches;
  match goal with |- context [first_batches ?l ?e] => to (first_batches l e) ltac:(unfold first_batches; repeat progress (cbn; unfold name_in, add_name; cbn; eqs)) end;
  cbn [length];
  repeat (rewrite stabilize_step;
    match goal with |- context [merge_batches ?l] => to (merge_batches l) ltac:(repeat progress (cbn; unfold merge_batches, share, name_in; cbn; eqs)) end;
    cbn [length Nat.eqb]; cbv zeta);
  cbn [obind map];
  repeat match goal with |- context [restore_atom_order ?l ?b] => to (restore_atom_order l b) ltac:(unfold restore_atom_order; repeat progress (cbn; eqs)) end.
Ltac isolated :=
  unfold isolate; cbn [length];
  repeat (rewrite isolate_step;
    match goal with |- context [collect_batches ?l ?e] => to (collect_batches l e) ltac:(batches) end;
    cbn [obind omap b_variables b_atoms];
    repeat (match goal with |- context [share ?a ?b] => to (share a b) ltac:(unfold share, name_in; cbn; eqs; cbn) end; cbn [obind omap b_variables b_atoms]));
  cbn [isolate_from obind omap concat app]; reflexivity.
Section Isolated.
  Variables n q x1 x2 x3 x4 x5 : string.
  Hypothesis Hd : NoDup [x1; x2; x3; x4; x5].
  Hypothesis Hq : ~ In q ["resolve_name"; "let"; "and_3v"; "not_3v"; "sentence_check"; "sentence_tell"; "sentence_learn"; "scoped"].
  Lemma all_unlike : 
    ((String.eqb x1 x2 = false /\ String.eqb x1 x3 = false /\ String.eqb x1 x4 = false /\ String.eqb x1 x5 = false) /\
    (String.eqb x2 x1 = false /\ String.eqb x2 x3 = false /\ String.eqb x2 x4 = false /\ String.eqb x2 x5 = false) /\
    (String.eqb x3 x1 = false /\ String.eqb x3 x2 = false /\ String.eqb x3 x4 = false /\ String.eqb x3 x5 = false) /\
    (String.eqb x4 x1 = false /\ String.eqb x4 x2 = false /\ String.eqb x4 x3 = false /\ String.eqb x4 x5 = false) /\
    (String.eqb x5 x1 = false /\ String.eqb x5 x2 = false /\ String.eqb x5 x3 = false /\ String.eqb x5 x4 = false)) /\
    (String.eqb q "resolve_name" = false /\ String.eqb q "let" = false /\ String.eqb q "and_3v" = false /\ String.eqb q "not_3v" = false /\ String.eqb q "sentence_check" = false) /\
    (String.eqb "resolve_name" q = false /\ String.eqb "let" q = false /\ String.eqb "and_3v" q = false /\ String.eqb "not_3v" q = false /\ String.eqb "sentence_check" q = false).
  Proof.
    rewrite !NoDup_cons_iff in Hd. cbn [In] in Hd, Hq. rewrite !String.eqb_neq. repeat split; intros E; intuition congruence.
  Qed.
  Ltac start := destruct all_unlike as ((? & ? & ? & ? & ?) & ? & ?); repeat match goal with H : _ /\ _ |- _ => destruct H end.
  Notation res := (VTuple [VStr "resolve_name"; VStr n; VVar x2]).
  Notation tru x := (VTuple [VStr "let"; VVar x; VStr "true"]).
  Notation qua := (VTuple [VStr q; VVar x2; VVar x4]).
  Notation chk := (VTuple [VStr "sentence_check"; VVar x1]).
  Lemma isolated_is_a : isolate [res; tru x3; qua; VTuple [VStr "and_3v"; VVar x4; VVar x3; VVar x1]; chk] [x1] =
    Ok [res; tru x3; qua; VTuple [VStr "and_3v"; VVar x4; VVar x3; VVar x1]; chk].
  Proof. start. isolated. Qed.
  Lemma isolated_is : isolate [res; tru x3; qua; VTuple [VStr "and_3v"; VVar x3; VVar x4; VVar x1]; chk] [x1] =
    Ok [res; tru x3; qua; VTuple [VStr "and_3v"; VVar x3; VVar x4; VVar x1]; chk].
  Proof. start. isolated. Qed.
  Lemma isolated_is_not_a : isolate [res; tru x3; qua; VTuple [VStr "not_3v"; VVar x4; VVar x1]; chk] [x1] =
    Ok [res; VTuple [VStr "scoped"; VList [tru x3]]; qua; VTuple [VStr "not_3v"; VVar x4; VVar x1]; chk].
  Proof. start. isolated. Qed.
  Lemma isolated_is_not : isolate [res; tru x3; qua; VTuple [VStr "and_3v"; VVar x3; VVar x4; VVar x5]; VTuple [VStr "not_3v"; VVar x5; VVar x1]; chk] [x1] =
    Ok [res; tru x3; qua; VTuple [VStr "and_3v"; VVar x3; VVar x4; VVar x5]; VTuple [VStr "not_3v"; VVar x5; VVar x1]; chk].
  Proof. start. isolated. Qed.
  Lemma isolated_tell : isolate [res; tru x3; VTuple [VStr "sentence_tell"; VList [VTuple [VStr q; VVar x2; VVar x3]]]] [] = Ok (tells n q x2 x3).
  Proof. start. isolated. Qed.
End Isolated.
Lemma isolated_learn A B v x2 x3 x4 : NoDup [x2; x3; x4] -> 
  isolate [let_is x3 "true"; let_is x4 v; VTuple [VStr "sentence_learn"; VTuple [VStr B; VVar x2; VVar x4]; VList [VTuple [VStr A; VVar x2; VVar x3]]]] [] =
  Ok [let_is x3 "true"; scoped_ [let_is x4 v; scoped_ [VTuple [VStr "sentence_learn"; VTuple [VStr B; VVar x2; VVar x4]; VList [VTuple [VStr A; VVar x2; VVar x3]]]]]].
Proof.
  intros Hd. assert (H : (String.eqb x2 x3 = false /\ String.eqb x2 x4 = false /\ String.eqb x3 x2 = false) /\ (String.eqb x3 x4 = false /\ String.eqb x4 x2 = false /\ String.eqb x4 x3 = false)).
  { rewrite !NoDup_cons_iff in Hd. cbn [In] in Hd. rewrite !String.eqb_neq. repeat split; intros E; intuition congruence. }
  destruct H as ((? & ? & ?) & ? & ? & ?). unfold let_is, scoped_. isolated.
Qed.

Ltac qualities H := unfold qualities in H; cbn [In] in H; repeat (destruct H as [<-|H]); [..|destruct H].
Lemma quality_unlike q : In q qualities -> ~ In q ["resolve_name"; "let"; "and_3v"; "not_3v"; "sentence_check"; "sentence_tell"; "sentence_learn"; "scoped"].
Proof. intros H I. qualities H; cbn [In] in I; repeat (destruct I as [I|I]; [discriminate I|]); exact I. Qed.

(** ** the optimizer *)
Ltac by_quality H := match type of H with In ?q _ => generalize H; generalize q end; clear; let ql := fresh "ql" in let Hql := fresh "Hql" in intros ql Hql; qualities Hql; cbv; reflexivity.
Ltac optimized H lem :=
  let f := fresh in let s := fresh in
  unfold optimize;
  match goal with |- context [front ?l] => match type of lem with isolate ?l' _ = _ => assert (f : front l = Ok l') by (by_quality H) end; rewrite f; clear f end; cbn [obind];
  match goal with |- context [sort plain_sizes ?l] => assert (s : sort plain_sizes l = Ok l) by (by_quality H); rewrite s; clear s end; cbn [obind];
  rewrite lem; cbn [obind]; eexists; split; [reflexivity|reflexivity].
Notation last_iteration its := (last (map snd its) VNone).
Section Optimized.
  Variables n q x1 x2 x3 x4 x5 : string.
  Hypothesis Hd : NoDup [x1; x2; x3; x4; x5].
  Hypothesis H : In q qualities.
  Notation res := (VTuple [VStr "resolve_name"; VStr n; VVar x2]).
  Notation tru x := (VTuple [VStr "let"; VVar x; VStr "true"]).
  Notation qua := (VTuple [VStr q; VVar x2; VVar x4]).
  Notation chk := (VTuple [VStr "sentence_check"; VVar x1]).
  Lemma optimized_is_a : exists its, optimize plain_sizes [res; tru x3; qua; VTuple [VStr "and_3v"; VVar x4; VVar x3; VVar x1]; chk] [x1] = Ok its /\
    last_iteration its = VList [res; tru x3; qua; VTuple [VStr "and_3v"; VVar x4; VVar x3; VVar x1]; chk].
  Proof. pose proof (isolated_is_a n q x1 x2 x3 x4 x5 Hd (quality_unlike q H)) as L. optimized H L. Qed.
  Lemma optimized_is : exists its, optimize plain_sizes [res; tru x3; qua; VTuple [VStr "and_3v"; VVar x3; VVar x4; VVar x1]; chk] [x1] = Ok its /\
    last_iteration its = VList [res; tru x3; qua; VTuple [VStr "and_3v"; VVar x3; VVar x4; VVar x1]; chk].
  Proof. pose proof (isolated_is n q x1 x2 x3 x4 x5 Hd (quality_unlike q H)) as L. optimized H L. Qed.
  Lemma optimized_is_not_a : exists its, optimize plain_sizes [res; tru x3; qua; VTuple [VStr "not_3v"; VVar x4; VVar x1]; chk] [x1] = Ok its /\
    last_iteration its = VList [res; VTuple [VStr "scoped"; VList [tru x3]]; qua; VTuple [VStr "not_3v"; VVar x4; VVar x1]; chk].
  Proof. pose proof (isolated_is_not_a n q x1 x2 x3 x4 x5 Hd (quality_unlike q H)) as L. optimized H L. Qed.
  Lemma optimized_is_not : exists its, optimize plain_sizes [res; tru x3; qua; VTuple [VStr "and_3v"; VVar x3; VVar x4; VVar x5]; VTuple [VStr "not_3v"; VVar x5; VVar x1]; chk] [x1] = Ok its /\
    last_iteration its = VList [res; tru x3; qua; VTuple [VStr "and_3v"; VVar x3; VVar x4; VVar x5]; VTuple [VStr "not_3v"; VVar x5; VVar x1]; chk].
  Proof. pose proof (isolated_is_not n q x1 x2 x3 x4 x5 Hd (quality_unlike q H)) as L. optimized H L. Qed.
  Lemma optimized_tell : exists its, optimize plain_sizes [tru x3; res; VTuple [VStr "sentence_tell"; VList [VTuple [VStr q; VVar x2; VVar x3]]]] [] = Ok its /\
    last_iteration its = VList (tells n q x2 x3).
  Proof. pose proof (isolated_tell n q x1 x2 x3 x4 x5 Hd (quality_unlike q H)) as L. optimized H L. Qed.
End Optimized.
