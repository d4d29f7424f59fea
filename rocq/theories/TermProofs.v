(** * Substitution in terms and in templates (atoms.py, grammar_functions.py) *)

From Coq Require Import ZArith String List Bool Lia.
From Verif Require Import Py PyFacts Effects Earley Atoms AtomsFacts Composer.
Import ListNotations.
Local Open Scope string_scope.
Local Open Scope list_scope.

(** the part of [v] at the place [p]: the numbers of the elements that lead
    to it *)
Fixpoint part (p : list nat) (v : value) : option value :=
  match p with
  | [] => Some v
  | i :: p' =>
      match v with
      | VTuple l | VList l => match nth_error l i with Some w => part p' w | None => None end
      | _ => None
      end
  end.

Lemma part_bind p : forall v b w, part p v = Some w ->
  part p (bind_variables v b) = Some (bind_variables w b).
Proof.
  induction p as [|i p IH]; intros v b w H; cbn in *; [now injection H as ->|].
  destruct v; try discriminate; cbn; rewrite nth_error_map;
    destruct (nth_error l i) as [u|]; try discriminate; cbn; auto.
Qed.

Lemma variables_part v x : In x (atom_variables v) <-> exists p, part p v = Some (VVar x).
Proof.
  induction v using value_ind'.
  7, 8: idtac.
  all: try (cbn; split; [intros []|intros ([|i p] & E); discriminate]).
  - cbn. split.
    + intros [->|[]]. exists []. reflexivity.
    + intros ([|i p] & E); [|discriminate]. injection E as ->. auto.
  - rewrite atom_variables_tuple. rewrite Forall_forall in H. split.
    + intros (a & Ha & Hx). apply (H a Ha) in Hx as (p & Hp). apply In_nth_error in Ha as (i & Hi).
      exists (i :: p). cbn. now rewrite Hi.
    + intros ([|i p] & E); [discriminate|]. cbn in E. destruct (nth_error l i) as [a|] eqn:Ei; [|discriminate].
      apply nth_error_In in Ei. exists a. split; auto. apply (H a Ei). eauto.
  - rewrite atom_variables_list. rewrite Forall_forall in H. split.
    + intros (a & Ha & Hx). apply (H a Ha) in Hx as (p & Hp). apply In_nth_error in Ha as (i & Hi).
      exists (i :: p). cbn. now rewrite Hi.
    + intros ([|i p] & E); [discriminate|]. cbn in E. destruct (nth_error l i) as [a|] eqn:Ei; [|discriminate].
      apply nth_error_In in Ei. exists a. split; auto. apply (H a Ei). eauto.
Qed.

Lemma NoDup_fold_names l : forall s, NoDup s -> NoDup (fold_left add_name l s).
Proof. induction l as [|x l IH]; cbn; auto using NoDup_add_name. Qed.
Lemma NoDup_fold_atoms l : forall s, NoDup s ->
  NoDup (fold_left (fun s a => fold_left add_name (atom_variables a) s) l s).
Proof. induction l as [|x l IH]; cbn; auto using NoDup_fold_names. Qed.
Lemma NoDup_variables v : NoDup (atom_variables v).
Proof.
  destruct v; cbn; try constructor; auto; try constructor; apply NoDup_fold_atoms; constructor.
Qed.

(** ** templates *)

(** [tok] is the text of a token; it occurs in [v] outside templates *)
Inductive token_in (tok : string) : value -> Prop :=
| token_here : token_in tok (VStr tok)
| token_tuple v l : In v l -> token_in tok v -> token_in tok (VTuple l)
| token_list v l : In v l -> token_in tok v -> token_in tok (VList l).

(** every token replaced by the values it stands for, at once *)
Fixpoint splice (a : string -> option (list value)) (v : value) : list value :=
  match v with
  | VStr s => match a s with Some l => l | None => [v] end
  | VTuple l => [VTuple (flat_map (splice a) l)]
  | VList l => [VList (flat_map (splice a) l)]
  | _ => [v]
  end.

(** the token at the same place as the value *)
Fixpoint stands_for (toks : list string) (values : list (list value)) (s : string) : option (list value) :=
  match toks, values with
  | t :: toks', v :: values' => if String.eqb s t then Some v else stands_for toks' values' s
  | _, _ => None
  end.

Lemma py_eq_token v tok : py_eq v (VStr tok) = true <-> v = VStr tok.
Proof.
  split.
  - destruct v; cbn; try discriminate. intros E. apply String.eqb_eq in E. now subst.
  - intros ->. cbn. apply String.eqb_refl.
Qed.

Lemma flat_map_id (f : value -> list value) l : (forall v, In v l -> f v = [v]) -> flat_map f l = l.
Proof.
  induction l as [|v l IH]; intros H; [reflexivity|]. cbn. rewrite (H v (or_introl eq_refl)). cbn.
  f_equal. apply IH. intros w Hw. apply H. now right.
Qed.

Lemma splice_none a v : (forall tok, token_in tok v -> a tok = None) -> splice a v = [v].
Proof.
  induction v using value_ind'; intros N; cbn; try reflexivity.
  - now rewrite (N s (token_here s)).
  - rewrite Forall_forall in H. rewrite flat_map_id; auto. intros v Hv. apply H; auto.
    intros tok T. apply N. now apply token_tuple with v.
  - rewrite Forall_forall in H. rewrite flat_map_id; auto. intros v Hv. apply H; auto.
    intros tok T. apply N. now apply token_list with v.
Qed.

Lemma flat_map_flat_map {A B C} (f : A -> list B) (g : B -> list C) l :
  flat_map g (flat_map f l) = flat_map (fun x => flat_map g (f x)) l.
Proof. induction l as [|x l IH]; cbn; [reflexivity|]. now rewrite flat_map_app, IH. Qed.

Lemma flat_map_ext_in {A B} (f g : A -> list B) l : (forall x, In x l -> f x = g x) -> flat_map f l = flat_map g l.
Proof.
  induction l as [|x l IH]; intros H; cbn; [reflexivity|]. rewrite (H x (or_introl eq_refl)). f_equal.
  apply IH. intros y Hy. apply H. now right.
Qed.

Lemma splice_step tok e a v :
  (forall w t, In w e -> token_in t w -> a t = None) ->
  flat_map (splice a) (replace_one (VStr tok) e v) =
  splice (fun s => if String.eqb s tok then Some e else a s) v.
Proof.
  intros He.
  assert (Ee : flat_map (splice a) e = e).
  { apply flat_map_id. intros w Hw. apply splice_none. intros t. now apply He. }
  induction v using value_ind'; cbn [replace_one].
  all: try (cbn; rewrite ?app_nil_r; reflexivity).
  - cbn. destruct (String.eqb s tok); [exact Ee|]. cbn. now rewrite app_nil_r.
  - cbn. f_equal. f_equal. rewrite flat_map_flat_map. apply flat_map_ext_in. now apply Forall_forall.
  - cbn. f_equal. f_equal. rewrite flat_map_flat_map. apply flat_map_ext_in. now apply Forall_forall.
Qed.

Lemma splice_ext a a' v : (forall s, a s = a' s) -> splice a v = splice a' v.
Proof.
  intros E. induction v using value_ind'; cbn; try reflexivity.
  - now rewrite E.
  - f_equal. f_equal. apply flat_map_ext_in. now apply Forall_forall.
  - f_equal. f_equal. apply flat_map_ext_in. now apply Forall_forall.
Qed.

Lemma apply_from_result : forall toks args values body,
  Forall2 (fun a t => first a = Ok (VStr t)) args toks ->
  length values <= length args ->
  (* no value contains the token of a later value *)
  (forall i j vi t, i < j -> j < length values -> nth_error values i = Some vi -> nth_error toks j = Some t ->
     forall w, In w vi -> ~ token_in t w) ->
  apply_from args body (map VList values) = Ok (flat_map (splice (stands_for toks values)) body).
Proof.
  intros toks args values. revert toks args. induction values as [|v values IH]; intros toks args body F L N.
  - cbn [map apply_from]. rewrite flat_map_id; [reflexivity|]. intros w _. apply splice_none. intros; destruct toks; reflexivity.
  - inversion F as [|a t args' toks' Ea F']; subst; [cbn in L; lia|].
    cbn [map apply_from]. rewrite Ea. cbn [obind elements]. rewrite IH with (toks := toks'); auto.
    + f_equal. unfold replace. rewrite flat_map_flat_map. apply flat_map_ext_in. intros w _.
      rewrite splice_step; [reflexivity|].
      intros u t' Hu T. destruct (stands_for toks' values t') eqn:E; auto. exfalso.
      assert (G : exists j, j < length values /\ nth_error toks' j = Some t').
      { clear -E. revert values E. induction toks' as [|t0 toks IH]; intros values E; [discriminate|].
        destruct values as [|v0 values]; [discriminate|]. cbn in E. destruct (String.eqb_spec t' t0) as [->|Nq].
        - exists 0. cbn. split; [lia|reflexivity].
        - destruct (IH _ E) as (j & Hj & Ej). exists (S j). cbn. split; [lia|exact Ej]. }
      destruct G as (j & Hj & Ej). apply (N 0 (S j) v t') with (w := u); auto; cbn; lia.
    + cbn in L. lia.
    + intros i j vi t' Hij Hj Ei Ej. apply (N (S i) (S j)); auto; cbn; lia.
Qed.
