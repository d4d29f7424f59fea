(** * The sort by cost and the isolation, on first-order queries *)

From Coq Require Import ZArith QArith String List Bool Lia Lqa Arith Permutation.
From Verif Require Import Py PyFacts Effects Atoms Earley Composer Optimizer OptimizerSpec OptimizerProofs OptimizerProofs2
  OptimizerProofs3 AtomsFacts DatalogSpec FolSpec FolProofs OptFolSpec OptFolProofs OptFolProofs2 OptFolProofs3 OptFolProofs4.
Import ListNotations.
Local Close Scope Q_scope.
Local Open Scope nat_scope.
Local Open Scope string_scope.
Local Open Scope list_scope.

(** ** arranged queries, with the late formulas arranged after the split *)
Section Split.
  Variable moved : string -> bool.
  Notation is_moved := (is_moved moved).
  Notation late := (fun f => negb (is_moved f)).
  Notation arr := (arr moved).
  Notation arrs := (arrs moved).
  Notation arrq := (arrq moved).

  Lemma arr_moved f f' : arr f f' -> is_moved f' = is_moved f /\ (is_moved f = true -> f' = f).
  Proof. intros H. inversion H; subst; auto; split; try reflexivity; discriminate. Qed.

  Lemma arrs_back q : forall q2, arrs (filter late q) q2 ->
    exists q1, arrs q q1 /\ filter is_moved q1 = filter is_moved q /\ filter late q1 = q2.
  Proof.
    induction q as [|f q IH]; intros q2 H; cbn [filter] in H.
    - inversion H; subst. exists []. repeat split. constructor.
    - destruct (is_moved f) eqn:E; cbn [negb] in H.
      + destruct (IH q2 H) as (q1 & A1 & A2 & A3). exists (f :: q1). split.
        * constructor; auto. constructor. now apply (moved_no_body moved).
        * cbn [filter]. rewrite E. cbn [negb]. now rewrite A2.
      + inversion H as [|? f' ? q2' Hf Hq]; subst. destruct (IH q2' Hq) as (q1 & A1 & A2 & A3). exists (f' :: q1).
        split; [now constructor|]. cbn [filter]. destruct (arr_moved _ _ Hf) as [Em _]. rewrite Em, E. cbn [negb]. now rewrite A2, A3.
  Qed.
  Lemma arrq_intro q c q2 : Permutation (filter is_moved q) c -> arrs (filter late q) q2 -> arrq q (c ++ q2).
  Proof.
    intros Hp H. destruct (arrs_back q q2 H) as (q1 & A1 & A2 & <-). constructor; auto. now rewrite A2.
  Qed.
  Lemma arrs_filter q q1 : arrs q q1 -> filter is_moved q1 = filter is_moved q /\ arrs (filter late q) (filter late q1).
  Proof.
    induction q as [|f q IH] in q1 |- *; intros H; inversion H as [|? f' ? q1' Hf Hq]; subst; [split; constructor|].
    destruct (IH q1' Hq) as [A1 A2]. destruct (arr_moved _ _ Hf) as [Em Es]. cbn [filter]. rewrite Em, A1.
    destruct (is_moved f) eqn:E; cbn [negb]; split; auto; [now rewrite Es|now constructor].
  Qed.
  Lemma arrq_elim q r : arrq q r -> exists c q2, r = c ++ q2 /\ Permutation (filter is_moved q) c /\ arrs (filter late q) q2.
  Proof.
    intros H. inversion H as [? q1 c Ha Hp]; subst. destruct (arrs_filter _ _ Ha) as [A1 A2].
    exists c, (filter late q1). rewrite A1 in Hp. auto.
  Qed.
  Lemma arrq_nil : arrq [] [].
  Proof. apply (arrq_intro [] [] []); constructor. Qed.

  Lemma perm_filter {A} (p : A -> bool) l m : Permutation l m -> Permutation (filter p l) (filter p m).
  Proof.
    induction 1 as [|x l m H IH|x y l|l m k H1 IH1 H2 IH2]; cbn [filter]; auto.
    - destruct (p x); auto.
    - destruct (p x), (p y); auto. constructor.
    - eapply perm_trans; eauto.
  Qed.

  (** one step of the sort *)
  Lemma arrq_cons q f0 q0 f' q1 :
    Permutation q (f0 :: q0) -> filter late (f0 :: q0) = filter late q ->
    (is_moved f0 = false -> forall f, In f q0 -> is_moved f = false) ->
    arr f0 f' -> arrq q0 q1 -> arrq q (f' :: q1).
  Proof.
    intros Hp Hl Hm Hf Hq. apply arrq_elim in Hq as (c & q2 & -> & Hc & Ha).
    destruct (arr_moved _ _ Hf) as [Em Es]. pose proof (perm_filter is_moved _ _ Hp) as Hpm. cbn [filter] in Hl, Hpm.
    destruct (is_moved f0) eqn:E; cbn [negb] in Hl.
    - rewrite (Es eq_refl). apply (arrq_intro q (f0 :: c) q2); [|now rewrite <- Hl].
      eapply perm_trans; [exact Hpm|]. now constructor.
    - assert (Hn : filter is_moved q0 = []).
      { specialize (Hm eq_refl). clear - Hm. induction q0 as [|f q0 IH]; auto. cbn [filter].
        rewrite (Hm f (or_introl eq_refl)). apply IH. intros; apply Hm; now right. }
      rewrite Hn in Hc, Hpm. apply Permutation_nil in Hc. subst c. cbn [app].
      apply (arrq_intro q [] (f' :: q2)); [exact Hpm|]. rewrite <- Hl. now constructor.
  Qed.
End Split.

(** ** the sort *)
Section Sort.
  Variable find : string -> list sizes.
  Notation rels := (relations find).
  Hypothesis Hsane : sane_sizes rels INFINITE.
  Hypothesis Hcore : core_unsized rels.
  Notation moved := (sized_pred rels).
  Notation is_moved := (is_moved moved).

  Definition fol_name (f : fol) : string :=
    match f with
    | FAtom a => fa_pred a
    | FEq _ _ => "equals"
    | FCmp less _ _ => if less then "less_than" else "greater_than"
    | FNot none _ => if none then "none" else "not"
    | FSome _ => "scoped"
    | FOr _ => "$disjunction"
    | FAll _ _ _ => "all"
    | FCount _ _ => "count"
    | FDet c _ _ => det_name c
    end.
  Lemma fol_value_name f : exists args, fol_value f = VTuple (VStr (fol_name f) :: args).
  Proof. destruct f; cbn [fol_value fol_name]; unfold atom_value; eauto. Qed.
  Lemma core_moved p : In p ["equals"; "less_than"; "greater_than"; "not"; "none"; "scoped"; "all"; "count";
      "det_equals"; "det_less_than"; "det_greater_than"] -> moved p = false.
  Proof.
    intros H. destruct (Hcore p H) as [H1 H2]. unfold sized_pred. destruct (rels p) as [|r l]; [contradiction|].
    cbn [forallb]. now rewrite (H2 r (or_introl eq_refl)).
  Qed.
  Lemma moved_name f : simple f -> is_moved f = moved (fol_name f).
  Proof.
    intros S. inversion S; subst; cbn [OptFolSpec.is_moved fol_name]; auto; symmetry; apply core_moved; simpl; auto 12.
    - destruct l; simpl; auto.
    - destruct n; simpl; auto 10.
    - destruct c; simpl; auto 14.
  Qed.

  Lemma divisor_one bound args ns q : divisor bound args ns q -> (forall m, In (Some m) ns -> Qle 1 m) -> Qle 1 q.
  Proof.
    induction 1 as [|a args ns q H IH|a n args ns q Hk H IH|a n args ns q Hk H IH]; intros Hm.
    - apply Qle_refl.
    - apply IH. intros; apply Hm; now right.
    - assert (H1 : Qle 1 n) by (apply Hm; now left). assert (H2 : Qle 1 q) by (apply IH; intros; apply Hm; now right).
      nra.
    - apply IH. intros; apply Hm; now right.
  Qed.
  Lemma rows_below bound args p r n c : In r (rels p) -> fst r = Some n -> rows INFINITE bound args r c -> Qlt c INFINITE.
  Proof.
    intros Hr Hn H. unfold rows in H. rewrite Hn in H. destruct H as (q & Hq & Hz & He).
    destruct (Hsane p r n Hr Hn) as (N1 & N2 & N3). pose proof (divisor_one _ _ _ _ Hq N3) as H1.
    assert (H2 : Qle 0 c).
    { destruct (Qlt_le_dec c 0) as [F|]; auto. exfalso. nra. }
    nra.
  Qed.

  Lemma cost_moved bound f c : simple f -> cost rels INFINITE bound (fol_value f) c ->
    (is_moved f = true -> Qlt c INFINITE) /\ (is_moved f = false -> Qeq c INFINITE).
  Proof.
    intros S (p & args & Hv & Hc). rewrite (moved_name f S).
    destruct (fol_value_name f) as (args' & E). rewrite E in Hv.
    destruct Hv as [Hv|[Hv|(s & Hv & _)]]; try discriminate. injection Hv as <- <-. cbn iota in Hc.
    unfold sized_pred. split.
    - intros Hm. rewrite forallb_forall in Hm. destruct Hc as [[_ ->]|[(r & Hr & Hrow) _]].
      + reflexivity.
      + specialize (Hm r Hr). destruct (fst r) as [n|] eqn:En; [|discriminate]. eapply rows_below; eauto.
    - intros Hm. assert (Hex : exists r, In r (rels (fol_name f)) /\ fst r = None).
      { clear - Hm. induction (rels (fol_name f)) as [|r l IH]; [discriminate|]. cbn [forallb] in Hm.
        destruct (fst r) eqn:E; [|exists r; split; [now left|auto]]. destruct IH as (r' & H1 & H2); auto. exists r'. split; [now right|auto]. }
      destruct Hex as (r & Hr & Hn). destruct Hc as [[Hnil _]|[(r' & Hr' & Hrow) Hall]]; [rewrite Hnil in Hr; destruct Hr|].
      destruct (Hall r Hr) as (c' & Hc' & Hle). unfold rows in Hc'. rewrite Hn in Hc'. subst c'.
      destruct (fst r') as [n|] eqn:En.
      + pose proof (rows_below _ _ _ _ _ _ Hr' En Hrow) as F. exfalso. apply (Qlt_not_le _ _ F Hle).
      + unfold rows in Hrow. rewrite En in Hrow. subst c. reflexivity.
  Qed.

  Lemma filter_map_fol (P : value -> bool) (p : fol -> bool) q : (forall f, In f q -> P (fol_value f) = p f) ->
    filter P (map fol_value q) = map fol_value (filter p q).
  Proof.
    induction q as [|f q IH]; intros H; auto. cbn [map filter]. rewrite (H f (or_introl eq_refl)), IH by (intros; apply H; now right).
    destruct (p f); reflexivity.
  Qed.

  Definition arg_moves (t t' : value) : Prop :=
    (t = t' /\ forall b, ~ body t b) \/
    exists q q', t = VList (map fol_value q) /\ t' = VList (map fol_value q') /\ (forall f, In f q -> simple f) /\ arrq moved q q'.

  Lemma fol_body q b : body (VList (map fol_value q)) b -> b = map fol_value q.
  Proof. intros H. inversion H; subst. reflexivity. Qed.
  Lemma fol_bodies q : (forall b, ~ body (VList (map fol_value q)) b) -> q = [].
  Proof.
    destruct q as [|f q]; auto. intros H. exfalso. destruct (fol_value_name f) as (args & E).
    apply (H (map fol_value (f :: q))). cbn [map]. rewrite E. constructor.
  Qed.
  Lemma arg_moves_same t t' : arg_moves t t' -> (forall l, t <> VList l) -> t' = t.
  Proof. intros [[-> _]|(q & q' & -> & _)] H; auto. now destruct (H (map fol_value q)). Qed.
  Lemma arg_moves_body q t' : (forall f, In f q -> simple f) -> arg_moves (VList (map fol_value q)) t' ->
    exists q', t' = VList (map fol_value q') /\ arrq moved q q'.
  Proof.
    intros S [[<- H]|(q0 & q' & E & -> & S0 & Ha)].
    - apply fol_bodies in H as ->. exists []. split; auto. apply arrq_nil.
    - injection E as E. apply (map_fol_inj q) in E; auto.
      + subst q0. eauto.
      + apply Forall_forall. intros f _ f'. apply fol_value_inj.
  Qed.

  Lemma simple_parts f args t : simple f -> fol_value f = VTuple args -> In t args ->
    (forall b, ~ body t b) \/ exists q, t = VList (map fol_value q) /\ forall f, In f q -> simple f.
  Proof.
    assert (N : forall v, no_list v -> forall b, ~ body v b) by (intros v Hv b Hb; inversion Hb; subst; destruct Hv).
    intros S E Ht. inversion S; subst; cbn [fol_value] in E; unfold atom_value in E; injection E as <-;
      repeat (destruct Ht as [<-|Ht]; [try (left; apply N; exact I; fail); try (left; apply N; match goal with H : simple_arg ?v |- no_list ?v => apply H end; fail); right; eauto; fail|]);
      try (destruct Ht; fail).
    left. apply N. now apply H0.
  Qed.

  Lemma atom_moves f args args' : simple f -> fol_value f = VTuple args -> Forall2 arg_moves args args' ->
    exists f', VTuple args' = fol_value f' /\ arr moved f f'.
  Proof.
    intros S E H.
    assert (Hs : forall t, no_list t -> forall t', arg_moves t t' -> t' = t).
    { intros t Hn t' Hm. apply (arg_moves_same t t' Hm). intros l ->. destruct Hn. }
    inversion S; subst; cbn [fol_value] in E; unfold atom_value in E; injection E as <-.
    - inversion H as [|? t' ? l' H2 H3]; subst. apply Hs in H2; [|exact I]. subst t'.
      assert (l' = fa_args a) as ->.
      { clear - H1 H3 Hs. induction H3 as [|t t' l l' Ht Hl IH]; auto. f_equal; [|apply IH; intros; apply H1; now right].
        apply Hs; auto. apply H1. now left. }
      exists (FAtom a). split; auto. now constructor.
    - inversion H as [|? t0 ? l0 A1 A2]; subst. inversion A2 as [|? t1 ? l1 A3 A4]; subst. inversion A4 as [|? t2 ? l2 A5 A6]; subst. inversion A6; subst.
      apply Hs in A1; [|exact I]. apply Hs in A3; [|apply H0]. apply Hs in A5; [|apply H1]. subst.
      exists (FEq t u). split; auto. now constructor.
    - inversion H as [|? t0 ? l0 A1 A2]; subst. inversion A2 as [|? t1 ? l1 A3 A4]; subst. inversion A4 as [|? t2 ? l2 A5 A6]; subst. inversion A6; subst.
      apply Hs in A1; [|exact I]. apply Hs in A3; [|apply H0]. apply Hs in A5; [|apply H1]. subst.
      exists (FCmp l t u). split; auto. now constructor.
    - inversion H as [|? t0 ? l0 A1 A2]; subst. inversion A2 as [|? t1 ? l1 A3 A4]; subst. inversion A4; subst.
      apply Hs in A1; [|exact I]. apply arg_moves_body in A3 as (q' & -> & A3); auto. subst.
      exists (FNot n q'). split; auto. now constructor.
    - inversion H as [|? t0 ? l0 A1 A2]; subst. inversion A2 as [|? t1 ? l1 A3 A4]; subst. inversion A4; subst.
      apply Hs in A1; [|exact I]. apply arg_moves_body in A3 as (q' & -> & A3); auto. subst.
      exists (FSome q'). split; auto. now constructor.
    - inversion H as [|? t0 ? l0 A1 A2]; subst. inversion A2 as [|? t1 ? l1 A3 A4]; subst. inversion A4 as [|? t2 ? l2 A5 A6]; subst.
      inversion A6 as [|? t3 ? l3 A7 A8]; subst. inversion A8; subst.
      apply Hs in A1; [|exact I]. apply Hs in A3; [|exact I]. apply arg_moves_body in A5 as (q1 & -> & A5); auto.
      apply arg_moves_body in A7 as (q2 & -> & A7); auto. subst.
      exists (FAll x q1 q2). split; auto. now constructor.
    - inversion H as [|? t0 ? l0 A1 A2]; subst. inversion A2 as [|? t1 ? l1 A3 A4]; subst. inversion A4 as [|? t2 ? l2 A5 A6]; subst. inversion A6; subst.
      apply Hs in A1; [|exact I]. apply Hs in A3; [|exact I]. apply arg_moves_body in A5 as (q1 & -> & A5); auto. subst.
      exists (FCount x q1). split; auto. now constructor.
    - inversion H as [|? t0 ? l0 A1 A2]; subst. inversion A2 as [|? t1 ? l1 A3 A4]; subst. inversion A4 as [|? t2 ? l2 A5 A6]; subst. inversion A6; subst.
      apply Hs in A1; [|exact I]. apply arg_moves_body in A3 as (q1 & -> & A3); auto. apply Hs in A5; [|exact I]. subst.
      exists (FDet c k q1). split; auto. now constructor.
  Qed.

  Lemma arr_refl f args : simple f -> fol_value f = VTuple args -> (forall t, In t args -> forall b, ~ body t b) -> arr moved f f.
  Proof.
    intros S E H. inversion S; subst; try (apply arr_same; reflexivity); cbn [fol_value] in E; injection E as <-.
    - rewrite (fol_bodies q) by (apply H; simpl; auto). apply arr_not; apply arrq_nil.
    - rewrite (fol_bodies q) by (apply H; simpl; auto). apply arr_some; apply arrq_nil.
    - rewrite (fol_bodies range) by (apply H; simpl; auto). rewrite (fol_bodies body) by (apply H; simpl; auto). apply arr_all; apply arrq_nil.
    - rewrite (fol_bodies q) by (apply H; simpl; auto). apply arr_count; apply arrq_nil.
    - rewrite (fol_bodies q) by (apply H; simpl; auto). apply arr_det; apply arrq_nil.
  Qed.

  Lemma sorted_arranged :
    (forall b l m, cheapest_first rels INFINITE b l m -> forall q, l = map fol_value q -> (forall f, In f q -> simple f) ->
       exists q', m = map fol_value q' /\ arrq moved q q') /\
    (forall b a a', cheapest_atom rels INFINITE b a a' -> forall f, a = fol_value f -> simple f ->
       exists f', a' = fol_value f' /\ arr moved f f') /\
    (forall b l m, cheapest_arguments rels INFINITE b l m ->
       (forall t, In t l -> (forall b, ~ body t b) \/ exists q, t = VList (map fol_value q) /\ forall f, In f q -> simple f) ->
       Forall2 arg_moves l m).
  Proof.
    apply cheapest_mutind.
    - intros b q E S. destruct q; [|discriminate]. exists []. split; auto. apply arrq_nil.
    - intros bound bound' f todo a a' rest result Hcost (Hp & Hs & Hfil) _ IHa _ _ IHr q -> S.
      destruct (Permutation_map_inv _ _ (Permutation_sym Hp)) as (q0 & Eq & Hq).
      destruct q0 as [|f0 q0]; [discriminate|]. injection Eq as -> ->.
      assert (Hq' := Permutation_sym Hq).
      assert (S0 : forall g, In g (f0 :: q0) -> simple g) by (intros g Hg; apply S; apply (Permutation_in _ Hq'); auto).
      assert (HK : forall g, In g q -> (is_moved g = true -> Qlt (f (fol_value g)) INFINITE) /\ (is_moved g = false -> Qeq (f (fol_value g)) INFINITE)).
      { intros g Hg. apply (cost_moved bound); auto. apply Hcost. now apply in_map. }
      assert (HK0 : forall g, In g (f0 :: q0) -> (is_moved g = true -> Qlt (f (fol_value g)) INFINITE) /\ (is_moved g = false -> Qeq (f (fol_value g)) INFINITE)).
      { intros g Hg. apply HK. apply (Permutation_in _ Hq'); auto. }
      assert (HP : forall g, ((is_moved g = true -> Qlt (f (fol_value g)) INFINITE) /\ (is_moved g = false -> Qeq (f (fol_value g)) INFINITE)) ->
        Qeq_bool (f (fol_value g)) INFINITE = negb (is_moved g)).
      { intros g [K1 K2]. destruct (is_moved g); cbn [negb].
        - destruct (Qeq_bool (f (fol_value g)) INFINITE) eqn:E; auto. apply Qeq_bool_iff in E. specialize (K1 eq_refl). rewrite E in K1. now apply Qlt_irrefl in K1.
        - apply Qeq_bool_iff. auto. }
      specialize (Hfil INFINITE). change (fol_value f0 :: map fol_value q0) with (map fol_value (f0 :: q0)) in Hfil.
      rewrite (filter_map_fol _ (fun g => negb (is_moved g)) (f0 :: q0)) in Hfil by (intros g Hg; apply HP; auto).
      rewrite (filter_map_fol _ (fun g => negb (is_moved g)) q) in Hfil by (intros g Hg; apply HP; auto).
      apply map_fol_inj in Hfil; [|apply Forall_forall; intros g _ g'; apply fol_value_inj| |].
      2,3: intros g Hg; apply filter_In in Hg as [Hg _]; auto.
      destruct (IHa f0 eq_refl) as (f' & -> & Ha); [apply S0; now left|].
      destruct (IHr q0 eq_refl) as (q1 & -> & Hr); [intros g Hg; apply S0; now right|].
      exists (f' :: q1). split; auto. eapply arrq_cons; eauto.
      intros Hm g Hg. destruct (is_moved g) eqn:E; auto. exfalso.
      apply In_nth_error in Hg as (i & Hi).
      assert (Hi' : nth_error (fol_value f0 :: map fol_value q0) (Datatypes.S i) = Some (fol_value g)) by (cbn [nth_error]; now apply map_nth_error).
      pose proof (Hs 0 (Datatypes.S i) _ _ ltac:(lia) eq_refl Hi') as Hle.
      destruct (HK0 f0 (or_introl eq_refl)) as [_ K1]. specialize (K1 Hm). rewrite K1 in Hle.
      destruct (HK0 g) as [K2 _]; [right; eapply nth_error_In; eauto|]. specialize (K2 E).
      apply (Qlt_not_le _ _ K2 Hle).
    - intros bound a Hn f -> S. exists f. split; auto.
      destruct (fol_value_name f) as (args & E).
      apply arr_refl with (args := VStr (fol_name f) :: args); auto.
      intros t Ht b. apply (Hn (VStr (fol_name f) :: args) t b); [now left|exact Ht].
    - intros bound a args args' t b Ha Ht Hb _ IH f -> S. destruct (fol_value_name f) as (args0 & E).
      destruct Ha as [Ha|Ha]; [|rewrite E in Ha; discriminate].
      destruct (atom_moves f args args' S Ha) as (f' & E' & Hf).
      { apply IH. intros t' Ht'. apply (simple_parts f args t' S Ha Ht'). }
      eauto.
    - constructor.
    - intros bound t l l' Hn _ IH H. constructor; [left; auto|]. apply IH. intros; apply H; now right.
    - intros bound t b b' l l' Hb _ IHb _ IHl H. constructor; [|apply IHl; intros; apply H; now right].
      destruct (H t (or_introl eq_refl)) as [F|(q & -> & S)]; [now apply F in Hb|].
      apply fol_body in Hb. destruct (IHb q Hb S) as (q' & -> & Hq). right. exists q, q'. auto.
  Qed.
End Sort.

(** ** the isolation *)
Lemma restored_fol rest atoms : (forall f, In f rest -> simple f) ->
  (forall v, In v atoms -> exists f, v = fol_value f /\ simple f) ->
  flat_map (picked atoms) (map fol_value rest) =
    map fol_value (filter (fun f => existsb (fun v => py_eq v (fol_value f)) atoms) rest).
Proof.
  intros S Ha. induction rest as [|f rest IH]; auto. cbn [map flat_map filter].
  rewrite IH by (intros; apply S; now right).
  assert (Sf : simple f) by (apply S; now left).
  assert (E : picked atoms (fol_value f) = if existsb (fun v => py_eq v (fol_value f)) atoms then [fol_value f] else []).
  { unfold picked. destruct (find _ atoms) as [v|] eqn:Ef.
    - pose proof Ef as E. apply find_some in E as [Hv Eq].
      replace (existsb _ atoms) with true by (symmetry; apply existsb_exists; eauto).
      destruct (Ha v Hv) as (f' & -> & S'). apply fol_value_eq in Eq; auto. now subst.
    - destruct (existsb (fun v => py_eq v (fol_value f)) atoms) eqn:E; auto.
      apply existsb_exists in E as (v & Hv & E). pose proof (find_none _ _ Ef v Hv) as F. cbv beta in F. congruence. }
  rewrite E. destruct (existsb _ atoms); reflexivity.
Qed.

Lemma in_map_fol f q : simple f -> (forall g, In g q -> simple g) -> In (fol_value f) (map fol_value q) -> In f q.
Proof. intros Sf S H. apply in_map_iff in H as (g & E & Hg). apply fol_value_inj in E; auto. now subst. Qed.

Lemma isolated_iso n : forall q roots r, (forall f, In f q -> simple f) ->
  isolate_from n (map fol_value q) roots = Ok r ->
  exists q', r = map fol_value q' /\ iso roots q q'.
Proof.
  induction n as [|n IH]; intros q roots r S H; destruct q as [|h rest]; cbn [map isolate_from] in H; try discriminate;
    try (injection H as <-; exists []; split; [reflexivity|constructor]).
  assert (Sh : simple h) by (apply S; now left).
  assert (Sr : forall f, In f rest -> simple f) by (intros; apply S; now right).
  destruct (collect_batches_raw (map fol_value rest) (atom_variables (fol_value h))) as (raw & Hraw & Hp & Ho & Hapart).
  rewrite Hraw in H. cbn [obind] in H.
  apply obind_ok in H as (parts & Hparts & H). injection H as <-.
  apply omap_ok in Hparts.
  assert (Hin : forall b v, In b raw -> In v (b_atoms b) -> exists f, v = fol_value f /\ In f rest).
  { intros b v Hb Hv. assert (F : In v (map fol_value rest)).
    { apply (Permutation_in _ (Permutation_sym Hp)). eapply in_all_atoms; eauto. }
    apply in_map_iff in F as (f & <- & Hf). eauto. }
  set (p := fun (b : batch) f => existsb (fun v => py_eq v (fol_value f)) (b_atoms b)).
  set (group := fun b : batch => filter (p b) rest).
  assert (Hp' : forall b f, In b raw -> In f rest -> (p b f = true <-> In (fol_value f) (b_atoms b))).
  { intros b f Hb Hf. unfold p. rewrite existsb_exists. split.
    - intros (v & Hv & E). pose proof Hv as Hv'. apply (Hin b) in Hv' as (f' & -> & Hf'); auto. apply fol_value_eq in E; auto. now subst.
    - intros Hv. exists (fol_value f). split; auto. apply py_eq_refl. }
  assert (Hvars : forall b x, In b raw -> (In x (b_variables b) <-> In x (vars (group b)) /\ ~ In x (fol_vars h))).
  { intros b x Hb. destruct (Ho b Hb) as (Hv & _). rewrite (Hv x), (vars_value h Sh). unfold vars_of. rewrite in_vars. split.
    - intros [(v & Hva & Hx) N]. split; auto. pose proof Hva as Hva'. apply (Hin b) in Hva' as (f & -> & Hf); auto.
      exists f. split; [|now apply vars_value; auto]. apply filter_In. split; auto. now apply Hp'.
    - intros [(f & Hf & Hx) N]. split; auto. apply filter_In in Hf as [Hf Hpf]. exists (fol_value f). split; [now apply Hp' in Hpf|].
      apply vars_value; auto. }
  assert (G : forall bs parts, (forall b, In b bs -> In b raw) -> apart bs ->
    Forall2 (fun x y => (if share (b_variables x) roots then Ok (b_atoms x)
       else obind (isolate_from n (b_atoms x) []) (fun recursed => Ok [VTuple [VStr "scoped"; VList recursed]])) = Ok y)
      (map (restore_atom_order (map fol_value rest)) bs) parts ->
    exists qs, parts = map (map fol_value) qs /\ isos roots h (map group bs) qs /\ ForallOrdPairs (apart_from h) (map group bs)).
  { clear parts Hparts. induction bs as [|b bs IHb]; intros parts Hb Hap HF; cbn [map] in HF;
      inversion HF as [|? y ? parts' Hy HF']; subst.
    - exists []. repeat split; constructor.
    - destruct Hap as [Hdis Hap]. destruct (IHb parts') as (qs & -> & Hi & Hfo); auto; [intros; apply Hb; now right|].
      cbn [b_variables b_atoms restore_atom_order] in Hy.
      change (flat_map (fun atom => match find (fun batch_atom => py_eq batch_atom atom) (b_atoms b) with
                                    | Some batch_atom => [batch_atom] | None => [] end) (map fol_value rest))
        with (flat_map (picked (b_atoms b)) (map fol_value rest)) in Hy.
      assert (Hbr : In b raw) by (apply Hb; now left).
      rewrite restored_fol in Hy; auto.
      2: { intros v Hv. apply (Hin b) in Hv as (f & -> & Hf); auto. exists f. auto. }
      fold (p b) in Hy. change (filter (p b) rest) with (group b) in Hy.
      assert (Hfo' : ForallOrdPairs (apart_from h) (map group (b :: bs))).
      { cbn [map]. constructor; auto. apply Forall_forall. intros g Hg. apply in_map_iff in Hg as (b' & <- & Hb').
        intros x Hx Hx'. destruct (in_dec string_dec x (fol_vars h)) as [|N]; auto. exfalso.
        apply (Hdis b' Hb' x); apply Hvars; auto. apply Hb. now right. }
      destruct (share (b_variables b) roots) eqn:Esh.
      + injection Hy as <-. exists (group b :: qs). split; [reflexivity|]. split; auto. cbn [map]. now constructor.
      + apply obind_ok in Hy as (rec & Hrec & Hy). injection Hy as <-.
        apply IH in Hrec as (q' & -> & Hq').
        2: { intros f Hf. apply filter_In in Hf as [Hf _]. auto. }
        exists ([FSome q'] :: qs). split; [reflexivity|]. split; auto. cbn [map]. constructor; auto.
        intros x Hx Hg. destruct (in_dec string_dec x (fol_vars h)) as [|N]; auto. exfalso.
        rewrite share_false in Esh. apply (Esh x); auto. apply Hvars; auto. }
  destruct (G raw parts) as (qs & -> & Hi & Hfo); auto.
  exists (h :: concat qs). split; [cbn [map]; now rewrite concat_map|].
  apply (iso_cons roots h rest (map group raw)); auto.
  - intros f Hf. assert (F : In (fol_value f) (all_atoms raw)) by (apply (Permutation_in _ Hp); now apply in_map).
    apply in_flat_map in F as (b & Hb & F). exists (group b). split; [now apply in_map|]. apply filter_In. split; auto. now apply Hp'.
  - intros g Hg. apply in_map_iff in Hg as (b & <- & Hb). now exists (p b).
Qed.
