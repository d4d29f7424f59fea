(** * The passes of the query optimizer keep the atoms *)

From Coq Require Import ZArith QArith String List Bool Permutation Lia Arith Sorting.Sorted.
From Verif Require Import Py PyFacts Effects Atoms AtomsFacts Earley Composer Optimizer OptimizerSpec.
Import ListNotations.
Local Close Scope Q_scope.
Local Open Scope nat_scope.
Local Open Scope string_scope.
Local Open Scope list_scope.

Lemma py_eq_str v s : py_eq v (VStr s) = true <-> v = VStr s.
Proof.
  split; [|intros ->; apply py_eq_refl].
  destruct v; cbn; try discriminate. intros H. apply String.eqb_eq in H. now subst.
Qed.

(** ** FrontResolveName *)

Lemma is_resolver_cons p l : is_resolver (VTuple (p :: l)) = py_eq p (VStr RESOLVE_NAME).
Proof.
  destruct (py_eq p (VStr RESOLVE_NAME)) eqn:E.
  - apply py_eq_str in E. now subst.
  - destruct p; try reflexivity. cbn [is_resolver]. cbn in E. exact E.
Qed.

Definition extracted (v : value) : outcome (list value * value) :=
  if no_empty_atom v then Ok (resolvers v, without_resolvers v) else Exn IndexErr.

Lemma extract_spec v : extract v = extracted v.
Proof.
  induction v using value_ind'; try reflexivity.
  - (* tuple *)
    cbn [extract].
    assert (G : forall l, Forall (fun v => extract v = extracted v) l ->
      (fix terms (l : list value) : outcome (list value * list value) :=
         match l with
         | [] => Ok ([], [])
         | term :: rest =>
             obind (match term with
                  | VList _ => obind (extract term) (fun p => Ok (fst p, [snd p]))
                  | _ => Ok ([], [term])
                  end) (fun x =>
             obind (terms rest) (fun y =>
             Ok (fst x ++ fst y, snd x ++ snd y)))
         end) l =
      if no_empty_atom (VTuple l) then
        Ok (resolvers (VTuple l), map (fun term => match term with VList _ => without_resolvers term | _ => term end) l)
      else Exn IndexErr).
    { clear. induction l as [|t l IH]; intros Hl; [reflexivity|]. inversion Hl; subst.
      specialize (IH H2). rewrite IH. clear IH. cbn [no_empty_atom forallb resolvers flat_map map].
      destruct t; try (cbn [obind fst snd app]; destruct (forallb _ l); reflexivity).
      rewrite H1. unfold extracted. destruct (no_empty_atom (VList l0)); [|reflexivity].
      cbn [obind fst snd app]. cbn [andb]. destruct (forallb _ l); reflexivity. }
    rewrite (G l H). unfold extracted. destruct (no_empty_atom (VTuple l)); reflexivity.
  - (* list *)
    cbn [extract].
    assert (G : forall l, Forall (fun v => extract v = extracted v) l ->
      (fix atoms (l : list value) : outcome (list value * list value) :=
         match l with
         | [] => Ok ([], [])
         | atom :: rest =>
             obind (match atom with
                  | VList _ => obind (extract atom) (fun p => Ok (fst p, [snd p]))
                  | VTuple [] => Exn IndexErr
                  | VTuple (name :: _) =>
                      if py_eq name (VStr RESOLVE_NAME) then Ok ([atom], [])
                      else obind (extract atom) (fun p => Ok (fst p, [snd p]))
                  | _ => Ok ([], [atom])
                  end) (fun x =>
             obind (atoms rest) (fun y =>
             Ok (fst x ++ fst y, snd x ++ snd y)))
         end) l =
      if no_empty_atom (VList l) then
        Ok (resolvers (VList l), flat_map (fun atom => if is_resolver atom then [] else [without_resolvers atom]) l)
      else Exn IndexErr).
    { clear. induction l as [|t l IH]; intros Hl; [reflexivity|]. inversion Hl; subst.
      specialize (IH H2). rewrite IH. clear IH. cbn [no_empty_atom forallb resolvers flat_map].
      destruct t; try (cbn [is_resolver orb andb obind fst snd app]; destruct (forallb _ l); reflexivity).
      - (* tuple *)
        destruct l0 as [|p l0]; [reflexivity|].
        rewrite is_resolver_cons. destruct (py_eq p (VStr RESOLVE_NAME)).
        + cbn [orb andb obind fst snd app]. destruct (forallb _ l); reflexivity.
        + rewrite H1. unfold extracted. cbn [orb andb].
          destruct (no_empty_atom (VTuple (p :: l0))); [|reflexivity].
          cbn [andb obind fst snd app]. destruct (forallb _ l); reflexivity.
      - rewrite H1. unfold extracted. cbn [is_resolver orb andb].
        destruct (no_empty_atom (VList l0)); [|reflexivity].
        cbn [andb obind fst snd app]. destruct (forallb _ l); reflexivity. }
    rewrite (G l H). unfold extracted. destruct (no_empty_atom (VList l)); reflexivity.
Qed.

(** the atoms of a list of atoms without the name resolvers *)
Definition others (l : list value) : list value :=
  flat_map (fun atom => if is_resolver atom then [] else [without_resolvers atom]) l.

Lemma front_spec l :
  front l = if no_empty_atom (VList l) then Ok (resolvers (VList l) ++ others l) else Exn IndexErr.
Proof.
  unfold front. rewrite extract_spec. unfold extracted. destruct (no_empty_atom (VList l)); reflexivity.
Qed.

Lemma resolvers_are v a : In a (resolvers v) -> is_resolver a = true.
Proof.
  induction v using value_ind'; try (intros []; fail).
  - cbn [resolvers]. intros Hin. apply in_flat_map in Hin as (t & Ht & Hin). rewrite Forall_forall in H.
    destruct t; try destruct Hin. now apply (H (VList l0)).
  - cbn [resolvers]. intros Hin. apply in_flat_map in Hin as (t & Ht & Hin). rewrite Forall_forall in H.
    destruct (is_resolver t) eqn:E; [destruct Hin as [<-|[]]; exact E|]. now apply (H t).
Qed.

Lemma without_is_resolver v : is_resolver (without_resolvers v) = is_resolver v.
Proof.
  destruct v; try reflexivity. cbn [without_resolvers]. destruct l as [|p l]; [reflexivity|].
  cbn [map]. rewrite !is_resolver_cons. destruct p; try reflexivity.
Qed.

Lemma without_list v : (exists l, without_resolvers v = VList l) <-> (exists l, v = VList l).
Proof. destruct v; cbn [without_resolvers]; split; intros (m & E); try discriminate; eauto. Qed.

Lemma without_none v : resolvers (without_resolvers v) = [].
Proof.
  induction v using value_ind'; try reflexivity.
  - cbn [without_resolvers resolvers]. induction l as [|t l IH]; [reflexivity|]. inversion H; subst.
    cbn [map flat_map]. rewrite IH by assumption. destruct t; try reflexivity.
    rewrite app_nil_r. exact H2.
  - cbn [without_resolvers resolvers]. induction l as [|t l IH]; [reflexivity|]. inversion H; subst.
    cbn [flat_map]. destruct (is_resolver t) eqn:E; [auto|].
    cbn [app flat_map]. rewrite without_is_resolver, E, H2. cbn [app]. auto.
Qed.

Lemma flat_map_perm {A B} (f g h : A -> list B) l :
  (forall x, In x l -> Permutation (f x) (g x ++ h x)) ->
  Permutation (flat_map f l) (flat_map g l ++ flat_map h l).
Proof.
  induction l as [|x l IH]; intros H; [constructor|].
  cbn [flat_map]. rewrite (H x (or_introl eq_refl)), IH by (intros y Hy; apply H; now right).
  rewrite <- !app_assoc. apply Permutation_app_head.
  rewrite !app_assoc. apply Permutation_app_tail, Permutation_app_comm.
Qed.

Lemma flat_map_flat_map {A B C} (f : A -> list B) (g : B -> list C) l :
  flat_map g (flat_map f l) = flat_map (fun x => flat_map g (f x)) l.
Proof. induction l as [|x l IH]; [reflexivity|]. cbn [flat_map]. now rewrite flat_map_app, IH. Qed.
Lemma flat_map_map {A B C} (f : A -> B) (g : B -> list C) l :
  flat_map g (map f l) = flat_map (fun x => g (f x)) l.
Proof. induction l as [|x l IH]; [reflexivity|]. cbn [map flat_map]. now rewrite IH. Qed.

Lemma leaves_split v : Permutation (leaves v) (flat_map leaves (resolvers v) ++ leaves (without_resolvers v)).
Proof.
  induction v using value_ind'; try apply Permutation_refl.
  - cbn [resolvers without_resolvers leaves]. rewrite flat_map_flat_map, flat_map_map.
    apply flat_map_perm. rewrite Forall_forall in H. intros t Ht. specialize (H t Ht).
    destruct t; try apply Permutation_refl. exact H.
  - cbn [resolvers without_resolvers leaves]. rewrite !flat_map_flat_map.
    apply flat_map_perm. rewrite Forall_forall in H. intros t Ht. specialize (H t Ht).
    destruct (is_resolver t).
    + cbn [flat_map]. rewrite !app_nil_r. apply Permutation_refl.
    + cbn [flat_map]. rewrite app_nil_r. exact H.
Qed.

Lemma front_leaves l r : front l = Ok r -> Permutation (leaves (VList l)) (leaves (VList r)).
Proof.
  rewrite front_spec. destruct (no_empty_atom (VList l)); intros E; inversion E; subst.
  rewrite (leaves_split (VList l)). cbn [leaves]. rewrite flat_map_app. apply Permutation_refl.
Qed.
