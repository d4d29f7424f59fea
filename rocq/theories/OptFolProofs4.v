(** * The passes of the optimizer on first-order queries *)

From Coq Require Import ZArith QArith String List Bool Lia Lqa Arith Permutation.
From Verif Require Import Py PyFacts Effects Atoms Earley Composer Optimizer OptimizerSpec OptimizerProofs OptimizerProofs2
  OptimizerProofs3 AtomsFacts MatchProofs DatalogSpec DatalogProofs DatalogProofs2 FolSpec FolProofs FolProofs2 OptFolSpec OptFolProofs OptFolProofs2 OptFolProofs3.
Import ListNotations.
Local Close Scope Q_scope.
Local Open Scope nat_scope.
Local Open Scope string_scope.
Local Open Scope list_scope.

(** ** formulas without disjunctions, name resolvers and lists of values *)

Definition simple_arg (v : value) : Prop := flat_arg v /\ no_list v.
Inductive simple : fol -> Prop :=
| simple_atom a : ~ In (fa_pred a) ["resolve_name"; "equals"; "less_than"; "greater_than"] ->
    (forall v, In v (fa_args a) -> simple_arg v) -> simple (FAtom a)
| simple_eq t u : simple_arg t -> simple_arg u -> simple (FEq t u)
| simple_cmp l t u : simple_arg t -> simple_arg u -> simple (FCmp l t u)
| simple_not n q : (forall f, In f q -> simple f) -> simple (FNot n q)
| simple_some q : (forall f, In f q -> simple f) -> simple (FSome q)
| simple_all x range body : (forall f, In f range -> simple f) -> (forall f, In f body -> simple f) -> simple (FAll x range body)
| simple_count x q : (forall f, In f q -> simple f) -> simple (FCount x q)
| simple_det c k q : (forall f, In f q -> simple f) -> simple (FDet c k q).

Lemma user_simple p : user_pred p -> ~ In p ["equals"; "less_than"; "greater_than"].
Proof. intros (H & _) F. repeat (destruct F as [<-|F]; [vm_compute in H; discriminate|]). destruct F. Qed.

Lemma tidy_simple arity moved f : forall B, well_formed (flat_atom arity) [] B f -> tidy moved B f -> simple f.
Proof.
  assert (L : forall q, Forall (fun f => forall B, well_formed (flat_atom arity) [] B f -> tidy moved B f -> simple f) q ->
    forall before B, wfs (flat_atom arity) [] B q -> tidies moved before B q -> forall f, In f q -> simple f).
  { induction 1 as [|f0 q Hf Hq IH]; intros before B; [intros _ _ f0 []|].
    intros [W1 W2] (T1 & T2 & T3) g [<-|Hg]; eauto. }
  induction f as [a|t u|l t u|n q IH|q IH|alts IH|x range body IHr IHb|x q IH|c k q IH] using fol_ind'; intros B W T.
  - destruct W as (W1 & _ & W3), T as [T1 T2]. rewrite Forall_forall in T2. constructor; [|intros v Hv; split; auto].
    intros [F|F]; [now apply T1|]. exact (user_simple _ W1 F).
  - destruct W as (W1 & W2 & _), T as [T1 T2]. constructor; split; auto.
  - destruct W as (W1 & W2 & _), T as [T1 T2]. constructor; split; auto.
  - destruct W as [_ W]. constructor. eapply L; [exact IH|exact W|exact T].
  - destruct W as [_ W]. constructor. eapply L; [exact IH|exact W|exact T].
  - destruct T.
  - rewrite wf_all in W. destruct W as (_ & _ & _ & _ & W1 & _ & W2), T as [T1 T2]. constructor; eapply L; eassumption.
  - rewrite wf_count in W. destruct W as (_ & _ & _ & _ & W). constructor. eapply L; [exact IH|exact W|exact T].
  - destruct W as [_ W]. constructor. eapply L; [exact IH|exact W|exact T].
Qed.
Lemma tidies_simple arity moved q : forall before B, wfs (flat_atom arity) [] B q -> tidies moved before B q -> forall f, In f q -> simple f.
Proof.
  induction q as [|f q IH]; intros before B; [intros _ _ f []|].
  intros [W1 W2] (T1 & T2 & T3) g [<-|Hg]; [eapply tidy_simple; eauto|eauto].
Qed.

(** ** equal values are the same formula *)

Fixpoint termy (v : value) : bool :=
  match v with
  | VInt _ | VStr _ | VVar _ => true
  | VTuple l | VList l => forallb termy l
  | _ => false
  end.
Lemma py_eq_termy a : forall b, termy a = true -> termy b = true -> py_eq a b = true -> a = b.
Proof.
  assert (G : forall l, Forall (fun a => forall b, termy a = true -> termy b = true -> py_eq a b = true -> a = b) l ->
    forall m, forallb termy l = true -> forallb termy m = true -> forall2b py_eq l m = true -> l = m).
  { induction 1 as [|x l Hx Hl IH]; intros [|y m]; simpl; auto; try discriminate.
    rewrite !andb_true_iff. intros [] [] []. f_equal; auto. }
  induction a using value_ind'; intros b0 Ha Hb He; try discriminate.
  - destruct b0; try discriminate. simpl in He. apply Qeq_bool_iff in He. f_equal. now apply inject_Z_eq.
  - destruct b0; try discriminate. simpl in He. apply String.eqb_eq in He. now subst.
  - destruct b0; try discriminate. simpl in He. apply String.eqb_eq in He. now subst.
  - destruct b0; try discriminate. rewrite py_eq_tuple in He. f_equal. now apply G.
  - destruct b0; try discriminate. rewrite py_eq_list in He. f_equal. now apply G.
Qed.
Lemma plain_termy v : plain v = true -> termy v = true.
Proof.
  induction v using value_ind'; simpl; auto; try discriminate; rewrite !forallb_forall; rewrite Forall_forall in *; auto.
Qed.
Lemma simple_arg_termy v : simple_arg v -> termy v = true.
Proof. intros [H _]. destruct (flat_arg_cases v H) as [[x ->]|[_ P]]; auto using plain_termy. Qed.
Lemma simple_termy f : simple f -> termy (fol_value f) = true.
Proof.
  assert (L : forall q, Forall (fun f => simple f -> termy (fol_value f) = true) q -> (forall f, In f q -> simple f) ->
     forallb termy (map fol_value q) = true).
  { intros q Hq Hs. apply forallb_forall. intros v Hv. apply in_map_iff in Hv as (f' & <- & Hf). rewrite Forall_forall in Hq. auto. }
  induction f as [a|t u|l t u|n q IH|q IH|alts IH|x range body IHr IHb|x q IH|c k q IH] using fol_ind'; intros S; inversion S; subst;
    cbn [fol_value]; unfold atom_value; cbn [termy forallb]; rewrite ?L, ?simple_arg_termy by auto; auto.
  apply forallb_forall. intros v Hv. apply simple_arg_termy. auto.
Qed.

Lemma map_fol_inj q : Forall (fun f => forall f', simple f -> simple f' -> fol_value f = fol_value f' -> f = f') q ->
  forall q', (forall f, In f q -> simple f) -> (forall f, In f q' -> simple f) -> map fol_value q = map fol_value q' -> q = q'.
Proof.
  induction 1 as [|f q Hf Hq IH]; intros [|f' q'] S S' E; try discriminate; auto. injection E as E1 E2. f_equal.
  - apply Hf; auto; [apply S|apply S']; now left.
  - apply IH; auto; intros; [apply S|apply S']; now right.
Qed.
Lemma atom_no_list a v l : simple (FAtom a) -> In v (fa_args a) -> v <> VList l.
Proof. intros S Hv ->. inversion S; subst. destruct (H1 _ Hv) as [_ []]. Qed.
Lemma atom_name a : simple (FAtom a) -> ~ In (fa_pred a) ["resolve_name"; "equals"; "less_than"; "greater_than"].
Proof. intros S. now inversion S. Qed.
Lemma fol_value_inj f : forall f', simple f -> simple f' -> fol_value f = fol_value f' -> f = f'.
Proof.
  assert (EV : forall p l p' l', VTuple (VStr p :: l) = VTuple (VStr p' :: l') -> p = p' /\ l = l') by (intros; split; congruence).
  induction f as [a|t u|l t u|n q IH|q IH|alts IH|x range body IHr IHb|x q IH|c k q IH] using fol_ind';
    intros [a'|t' u'|l' t' u'|n' q'|q'|alts'|x' range' body'|x' q'|c' k' q'] S S' E;
    try (inversion S; fail); try (inversion S'; fail); cbn [fol_value] in E; unfold atom_value in E; apply EV in E as [E1 E2];
    try (exfalso; revert E1; repeat match goal with |- context [if ?b then _ else _] => destruct b | |- context [det_name ?c] => is_var c; destruct c end;
         discriminate);
    try (exfalso; apply (atom_name a S); rewrite E1; repeat match goal with |- context [if ?b then _ else _] => destruct b end; simpl; auto; fail);
    try (exfalso; apply (atom_name a' S'); rewrite <- E1; repeat match goal with |- context [if ?b then _ else _] => destruct b end; simpl; auto; fail);
    try (exfalso; eapply (atom_no_list a); [exact S|rewrite E2|reflexivity]; simpl; eauto; fail);
    try (exfalso; eapply (atom_no_list a'); [exact S'|rewrite <- E2|reflexivity]; simpl; eauto; fail).
  - f_equal. destruct a, a'. cbn in *. congruence.
  - congruence.
  - injection E2 as -> ->. f_equal. destruct l, l'; auto; discriminate.
  - injection E2 as E2. inversion S; inversion S'; subst. f_equal; [destruct n, n'; auto; discriminate|]. now apply (map_fol_inj q IH).
  - injection E2 as E2. inversion S; inversion S'; subst. f_equal. now apply (map_fol_inj q IH).
  - injection E2 as E2 E3 E4. inversion S; inversion S'; subst. f_equal; [now apply (map_fol_inj range IHr)|now apply (map_fol_inj body IHb)].
  - injection E2 as E2 E3. inversion S; inversion S'; subst. f_equal. now apply (map_fol_inj q IH).
  - injection E2 as E2 E3. inversion S; inversion S'; subst. f_equal; [destruct c, c'; auto; discriminate|now apply (map_fol_inj q IH)].
Qed.
Lemma fol_value_eq f f' : simple f -> simple f' -> py_eq (fol_value f) (fol_value f') = true -> f = f'.
Proof. intros S S' E. apply fol_value_inj; auto. apply py_eq_termy; auto using simple_termy. Qed.

(** ** variables *)
Lemma args_vars args p x : (forall v, In v args -> simple_arg v) ->
  (In x (atom_variables (VTuple (VStr p :: args))) <-> In x (arg_vars args)).
Proof.
  intros H. rewrite atom_variables_tuple, in_arg_vars, <- (flat_vars args x); [|intros v Hv; now apply H]. split.
  - intros (v & [<-|Hv] & Hx); [destruct Hx|eauto].
  - intros (v & Hv & Hx). exists v. split; [now right|auto].
Qed.
Lemma vars_value f : simple f -> forall x, In x (atom_variables (fol_value f)) <-> In x (fol_vars f).
Proof.
  intros S x. split; [|apply fol_vars_value]. revert S x.
  assert (L : forall q, Forall (fun f => simple f -> forall x, In x (atom_variables (fol_value f)) -> In x (fol_vars f)) q ->
    (forall f, In f q -> simple f) -> forall x, In x (atom_variables (VList (map fol_value q))) -> In x (vars q)).
  { intros q Hq S x Hx. apply atom_variables_list in Hx as (v & Hv & Hx). apply in_map_iff in Hv as (f' & <- & Hf).
    rewrite Forall_forall in Hq. apply in_vars. eauto. }
  induction f as [a|t u|l t u|n q IH|q IH|alts IH|x range body IHr IHb|x q IH|c k q IH] using fol_ind'; intros S y Hy; inversion S; subst;
    cbn [fol_value fol_vars] in *.
  - unfold atom_value in Hy. now apply args_vars in Hy.
  - apply args_vars in Hy; auto. intros v [<-|[<-|[]]]; auto.
  - apply args_vars in Hy; auto. intros v [<-|[<-|[]]]; auto.
  - apply atom_variables_tuple in Hy as (v & [<-|[<-|[]]] & Hy); [destruct Hy|]. now apply (L q IH).
  - apply atom_variables_tuple in Hy as (v & [<-|[<-|[]]] & Hy); [destruct Hy|]. now apply (L q IH).
  - apply atom_variables_tuple in Hy as (v & [<-|[<-|[<-|[<-|[]]]]] & Hy); [destruct Hy| | |].
    + destruct Hy as [->|[]]. now left.
    + right. apply in_or_app. left. now apply (L range IHr).
    + right. apply in_or_app. right. now apply (L body IHb).
  - apply atom_variables_tuple in Hy as (v & [<-|[<-|[<-|[]]]] & Hy); [destruct Hy| |].
    + destruct Hy as [->|[]]. now left.
    + right. now apply (L q IH).
  - apply atom_variables_tuple in Hy as (v & [<-|[<-|[<-|[]]]] & Hy); [destruct Hy| |destruct Hy]. now apply (L q IH).
Qed.

(** ** the first pass does nothing *)
Lemma simple_clean f : simple f -> is_resolver (fol_value f) = false /\ resolvers (fol_value f) = [] /\
  without_resolvers (fol_value f) = fol_value f /\ no_empty_atom (fol_value f) = true.
Proof.
  assert (L : forall q, Forall (fun f => simple f -> is_resolver (fol_value f) = false /\ resolvers (fol_value f) = [] /\
      without_resolvers (fol_value f) = fol_value f /\ no_empty_atom (fol_value f) = true) q ->
    (forall f, In f q -> simple f) -> let v := VList (map fol_value q) in
    resolvers v = [] /\ without_resolvers v = v /\ no_empty_atom v = true).
  { intros q Hq. induction Hq as [|f' q Hf Hq IH]; intros S; [repeat split; reflexivity|].
    destruct (Hf (S f' (or_introl eq_refl))) as (A1 & A2 & A3 & A4). destruct IH as (C1 & C2 & C3); [intros; apply S; now right|].
    cbn [resolvers without_resolvers no_empty_atom map flat_map forallb] in *. rewrite A1, A2, A3, A4 in *.
    repeat split.
    - exact C1.
    - cbn [app]. f_equal. f_equal. now injection C2.
    - rewrite C3, andb_true_r. cbn [orb]. rewrite andb_true_r. destruct f'; reflexivity. }
  assert (A : forall p args, p <> "resolve_name" -> (forall v, In v args -> no_list v) -> let v := VTuple (VStr p :: args) in
    is_resolver v = false /\ resolvers v = [] /\ without_resolvers v = v /\ no_empty_atom v = true).
  { intros p args Hp Ha. cbn [is_resolver resolvers without_resolvers no_empty_atom flat_map map forallb app]. split.
    - destruct (String.eqb_spec p "resolve_name"); congruence.
    - cbn [andb]. induction args as [|v args IH]; [repeat split; reflexivity|].
      destruct IH as (C1 & C2 & C3); [intros; apply Ha; now right|].
      specialize (Ha v (or_introl eq_refl)). cbn [flat_map map forallb]. rewrite C1, C3.
      injection C2 as C2. repeat split; [destruct v; auto; destruct Ha| |destruct v; auto; destruct Ha].
      f_equal. f_equal. f_equal; [destruct v; auto; destruct Ha|exact C2]. }
  induction f as [a|t u|l t u|n q IH|q IH|alts IH|x range body IHr IHb|x q IH|c k q IH] using fol_ind'; intros S; inversion S; subst;
    cbn [fol_value]; unfold atom_value.
  - apply A; [|intros v Hv; match goal with H : forall v, In v (fa_args a) -> _ |- _ => now apply H end]. intros F. apply (atom_name a S). rewrite F. now left.
  - apply A; [discriminate|]. intros v [<-|[<-|[]]]; match goal with H : simple_arg ?v |- no_list ?v => apply H end.
  - apply A; [destruct l; discriminate|]. intros v [<-|[<-|[]]]; match goal with H : simple_arg ?v |- no_list ?v => apply H end.
  - destruct (L q IH ltac:(assumption)) as (C1 & C2 & C3). cbn [is_resolver resolvers without_resolvers no_empty_atom flat_map map forallb] in *.
    rewrite C1, C2, C3. destruct n; auto.
  - destruct (L q IH ltac:(assumption)) as (C1 & C2 & C3). cbn [is_resolver resolvers without_resolvers no_empty_atom flat_map map forallb] in *.
    rewrite C1, C2, C3. auto.
  - destruct (L range IHr ltac:(assumption)) as (C1 & C2 & C3). destruct (L body IHb ltac:(assumption)) as (D1 & D2 & D3).
    cbn [is_resolver resolvers without_resolvers no_empty_atom flat_map map forallb] in *.
    rewrite C1, C2, C3, D1, D2, D3. auto.
  - destruct (L q IH ltac:(assumption)) as (C1 & C2 & C3). cbn [is_resolver resolvers without_resolvers no_empty_atom flat_map map forallb] in *.
    rewrite C1, C2, C3. auto.
  - destruct (L q IH ltac:(assumption)) as (C1 & C2 & C3). cbn [is_resolver resolvers without_resolvers no_empty_atom flat_map map forallb] in *.
    rewrite C1, C2, C3. destruct c; auto.
Qed.
Lemma front_same q : (forall f, In f q -> simple f) -> front (map fol_value q) = Ok (map fol_value q).
Proof.
  intros S. rewrite front_spec.
  assert (G : resolvers (VList (map fol_value q)) = [] /\ others (map fol_value q) = map fol_value q /\ no_empty_atom (VList (map fol_value q)) = true).
  { induction q as [|f q IH]; [auto|]. destruct IH as (C1 & C2 & C3); [intros; apply S; now right|].
    destruct (simple_clean f (S f (or_introl eq_refl))) as (A1 & A2 & A3 & A4).
    cbn [resolvers no_empty_atom map flat_map forallb] in *. unfold others in *. cbn [flat_map]. rewrite A1, A2, A3, A4, C1, C2, C3.
    repeat split. destruct f; reflexivity. }
  destruct G as (-> & -> & ->). reflexivity.
Qed.
