(** * The order by cost *)

From Coq Require Import ZArith QArith String Ascii List Bool Permutation Lia Arith Sorting.Sorted.
From Verif Require Import Py PyFacts Effects Atoms AtomsFacts Earley Composer Optimizer OptimizerSpec OptimizerProofs.
Import ListNotations.
Local Close Scope Q_scope.
Local Open Scope nat_scope.
Local Open Scope string_scope.
Local Open Scope list_scope.

Lemma obind_ok {A B} (o : outcome A) (f : A -> outcome B) r :
  obind o f = Ok r -> exists a, o = Ok a /\ f a = Ok r.
Proof. destruct o; cbn; intros H; try discriminate. eauto. Qed.

Lemma omap_ok {A B} (f : A -> outcome B) l : forall m, omap f l = Ok m -> Forall2 (fun x y => f x = Ok y) l m.
Proof.
  induction l as [|x l IH]; cbn [omap]; intros m H.
  - inversion H. constructor.
  - apply obind_ok in H as (y & Hy & H). apply obind_ok in H as (ys & Hys & H). inversion H; subst.
    constructor; auto.
Qed.

Lemma omap_fuel {A B} (f : A -> outcome B) l : (forall x, In x l -> f x <> OutOfFuel) -> omap f l <> OutOfFuel.
Proof.
  induction l as [|x l IH]; cbn [omap]; intros H; [discriminate|].
  pose proof (H x (or_introl eq_refl)) as Hx. destruct (f x); cbn [obind]; try congruence.
  destruct (omap f l) eqn:E; cbn [obind]; try congruence.
  exfalso. apply IH; auto. intros y Hy. apply H. now right.
Qed.

Lemma name_in_In x l : name_in x l = true <-> In x l.
Proof.
  unfold name_in. rewrite existsb_exists. split.
  - intros (y & Hy & E). apply String.eqb_eq in E. now subst.
  - intros H. exists x. split; auto. apply String.eqb_refl.
Qed.

(** ** sorting by a key *)
Section Key.
  Variable f : value -> Q.
  Fixpoint insert_by (x : value) (l : list value) : list value :=
    match l with
    | [] => [x]
    | y :: t => if Qle_bool (f x) (f y) then x :: l else y :: insert_by x t
    end.
  Fixpoint sort_by (l : list value) : list value :=
    match l with [] => [] | x :: t => insert_by x (sort_by t) end.
  Notation pair_ := (fun a => (f a, a)).

  Lemma cost_insert_map x l : cost_insert (f x, x) (map pair_ l) = map pair_ (insert_by x l).
  Proof.
    induction l as [|y l IH]; [reflexivity|]. cbn [map cost_insert insert_by fst].
    destruct (Qle_bool (f x) (f y)); [reflexivity|]. cbn [map]. now rewrite IH.
  Qed.
  Lemma cost_sort_map l : cost_sort (map pair_ l) = map pair_ (sort_by l).
  Proof. induction l as [|x l IH]; [reflexivity|]. cbn [map cost_sort sort_by]. now rewrite IH, cost_insert_map. Qed.

  Lemma insert_by_perm x l : Permutation (x :: l) (insert_by x l).
  Proof.
    induction l as [|y l IH]; [apply Permutation_refl|]. cbn [insert_by]. destruct (Qle_bool (f x) (f y)); [apply Permutation_refl|].
    eapply perm_trans; [apply perm_swap|]. now constructor.
  Qed.
  Lemma sort_by_perm l : Permutation l (sort_by l).
  Proof.
    induction l as [|x l IH]; [constructor|]. cbn [sort_by].
    eapply perm_trans; [apply perm_skip, IH|]. apply insert_by_perm.
  Qed.

  Notation le_ := (fun a b => Qle (f a) (f b)).
  Lemma insert_by_sorted x l : StronglySorted le_ l -> StronglySorted le_ (insert_by x l).
  Proof.
    induction l as [|y l IH]; intros H; cbn [insert_by].
    - constructor; [constructor|constructor].
    - inversion H; subst. destruct (Qle_bool (f x) (f y)) eqn:E.
      + apply Qle_bool_iff in E. constructor; auto. constructor; auto.
        rewrite Forall_forall in *. intros z Hz. eapply Qle_trans; [exact E|]. now apply H3.
      + constructor; auto. rewrite Forall_forall in *. intros z Hz.
        apply (Permutation_in _ (Permutation_sym (insert_by_perm x l))) in Hz as [<-|Hz]; auto.
        apply Qlt_le_weak, Qnot_le_lt. rewrite <- Qle_bool_iff, E. discriminate.
  Qed.
  Lemma sort_by_sorted l : StronglySorted le_ (sort_by l).
  Proof. induction l; cbn [sort_by]; [constructor|now apply insert_by_sorted]. Qed.

  Lemma insert_by_filter c x l :
    filter (fun a => Qeq_bool (f a) c) (insert_by x l) = filter (fun a => Qeq_bool (f a) c) (x :: l).
  Proof.
    induction l as [|y l IH]; [reflexivity|]. cbn [insert_by]. destruct (Qle_bool (f x) (f y)) eqn:E; [reflexivity|].
    cbn [filter]. cbn [filter] in IH. rewrite IH.
    destruct (Qeq_bool (f x) c) eqn:Ex, (Qeq_bool (f y) c) eqn:Ey; try reflexivity.
    exfalso. apply Qeq_bool_iff in Ex, Ey.
    assert (Qle_bool (f x) (f y) = true); [|congruence].
    apply Qle_bool_iff. rewrite Ex, Ey. apply Qle_refl.
  Qed.
  Lemma sort_by_filter c l :
    filter (fun a => Qeq_bool (f a) c) (sort_by l) = filter (fun a => Qeq_bool (f a) c) l.
  Proof.
    induction l as [|x l IH]; [reflexivity|]. cbn [sort_by]. rewrite insert_by_filter. cbn [filter]. now rewrite IH.
  Qed.

  Lemma sorted_nth (l : list value) : StronglySorted le_ l ->
    forall i j a b, i < j -> nth_error l i = Some a -> nth_error l j = Some b -> Qle (f a) (f b).
  Proof.
    induction 1 as [|x l _ IH Hx]; intros [|i] [|j] a b Hij Ha Hb; try lia; try discriminate.
    - cbn in Ha, Hb. injection Ha as <-. rewrite Forall_forall in Hx. apply Hx. eapply nth_error_In; eauto.
    - cbn in Ha, Hb. apply (IH i j); auto. lia.
  Qed.

  Lemma sort_by_ranking l : ranking f l (sort_by l).
  Proof.
    split; [apply sort_by_perm|]. split.
    - apply sorted_nth, sort_by_sorted.
    - intros c. apply sort_by_filter.
  Qed.
End Key.

Section Cost.
  Variable find : string -> list sizes.
  Definition relations (p : string) : list (option Q * list (option Q)) :=
    map (fun r => (z_relation r, z_arguments r)) (find p).
  Notation is_cost := (cost relations INFINITE).

  Lemma factor_known bound a n : known bound a -> factor bound a (Some n) = n.
  Proof.
    destruct a; cbn [known factor]; try (intros []; fail); try reflexivity.
    intros H. now rewrite (proj2 (name_in_In _ _) H).
  Qed.
  Lemma factor_unknown bound a n : ~ known bound a -> factor bound a (Some n) = 1%Q.
  Proof.
    destruct a; cbn [known factor]; try reflexivity; try (intros H; exfalso; apply H; exact I).
    intros H. destruct (name_in name bound) eqn:E; [|reflexivity]. apply name_in_In in E. contradiction.
  Qed.
  Lemma known_dec bound a : known bound a \/ ~ known bound a.
  Proof.
    destruct a; cbn [known]; auto.
    destruct (name_in name bound) eqn:E; [left; now apply name_in_In|right].
    intros H. apply name_in_In in H. congruence.
  Qed.

  Lemma size_product_divisor bound args : forall ns, length args = length ns ->
    exists q, divisor bound args ns q /\ Qeq q (size_product bound args ns).
  Proof.
    induction args as [|a args IH]; intros [|n ns] Hl; try discriminate.
    - exists 1%Q. split; [constructor|reflexivity].
    - injection Hl as Hl. destruct (IH ns Hl) as (q & Hq & Eq). cbn [size_product].
      destruct n as [n|].
      + destruct (known_dec bound a) as [K|K].
        * exists (n * q)%Q. split; [now constructor|]. rewrite factor_known by exact K. now rewrite Eq.
        * exists q. split; [now constructor|]. rewrite factor_unknown by exact K. rewrite Eq. ring.
      + exists q. split; [now constructor|]. cbn [factor]. rewrite Eq. ring.
  Qed.

  Lemma relation_cost_rows bound args r c :
    relation_cost bound args r = Ok c -> rows INFINITE bound args (z_relation r, z_arguments r) c.
  Proof.
    unfold relation_cost, rows. cbn [fst snd]. destruct (z_relation r) as [n|]; [|intros E; now inversion E].
    destruct (Nat.eqb_spec (length args) (length (z_arguments r))) as [El|]; [|discriminate].
    destruct (size_product_divisor bound args (z_arguments r) El) as (q & Hq & Eq).
    destruct (Qeq_bool (size_product bound args (z_arguments r)) 0) eqn:E0; [discriminate|].
    intros E. inversion E; subst. exists q. split; auto.
    assert (~ Qeq (size_product bound args (z_arguments r)) 0)
      by (intros H; apply Qeq_bool_iff in H; congruence).
    split; [now rewrite Eq|]. rewrite Eq. field. exact H.
  Qed.

  Lemma max_cost_spec l : forall m, (max_cost m l = m \/ In (max_cost m l) l) /\ Qle m (max_cost m l) /\
    forall c, In c l -> Qle c (max_cost m l).
  Proof.
    induction l as [|c l IH]; intros m; cbn [max_cost].
    - split; [now left|]. split; [apply Qle_refl|intros c []].
    - destruct (IH (if Qle_bool c m then m else c)) as (A & B & C).
      destruct (Qle_bool c m) eqn:E.
      + split; [destruct A; auto; right; now right|]. split; auto. intros c' [<-|Hc]; auto.
        apply Qle_bool_iff in E. eapply Qle_trans; eauto.
      + split; [destruct A as [A|A]; [rewrite A; right; now left|right; now right]|].
        assert (Qle m c) by (apply Qlt_le_weak, Qnot_le_lt; rewrite <- Qle_bool_iff, E; discriminate).
        split; [eapply Qle_trans; eauto|]. intros c' [<-|Hc]; auto.
  Qed.

  Lemma characters_ascii s : characters s = map (fun ch => VStr (String ch "")) (list_ascii_of_string s).
  Proof. induction s as [|c s IH]; [reflexivity|]. cbn [characters list_ascii_of_string map]. now rewrite IH. Qed.

  Lemma relations_of_ok p rs : relations_of find p = Ok rs ->
    map (fun r => (z_relation r, z_arguments r)) rs = match p with VStr p => relations p | _ => [] end.
  Proof. destruct p; cbn [relations_of]; intros E; inversion E; reflexivity. Qed.

  Lemma calculate_cost_is bound atom c : calculate_cost find bound atom = Ok c -> is_cost bound atom c.
  Proof.
    unfold calculate_cost. intros H. apply obind_ok in H as (p & Hp & H). apply obind_ok in H as (rs & Hrs & H).
    apply obind_ok in H as (costs & Hc & H).
    set (args := match elements atom with Some l => tl l | None => [] end) in *.
    exists p, args. split.
    - destruct atom; cbn [first] in Hp; try discriminate.
      + destruct s as [|ch s]; [discriminate|]. inversion Hp; subst. right; right. exists (String ch s).
        split; auto. subst args. cbn [elements characters tl map list_ascii_of_string]. now rewrite characters_ascii.
      + destruct l as [|x l]; [discriminate|]. inversion Hp; subst. now left.
      + destruct l as [|x l]; [discriminate|]. inversion Hp; subst. right; now left.
    - apply relations_of_ok in Hrs. cbn zeta. rewrite <- Hrs. apply omap_ok in Hc.
      inversion Hc as [|r c0 rs' t Hr Ht]; subst.
      + inversion H; subst. left. auto.
      + inversion H; subst. right. clear H. 
        assert (Hall : Forall2 (fun r c => relation_cost bound args r = Ok c) (r :: rs') (c0 :: t)) by (constructor; auto).
        destruct (max_cost_spec t c0) as (A & B & C).
        assert (In (max_cost c0 t) (c0 :: t)) by (destruct A as [-> |A]; [now left|now right]).
        split.
        * clear - Hall H. induction Hall as [|x y l m Hxy _ IH]; [destruct H|].
          destruct H as [<-|H].
          -- eexists. split; [now left|]. apply relation_cost_rows in Hxy. exact Hxy.
          -- destruct (IH H) as (r1 & Hr1 & Hrow). exists r1. split; [now right|exact Hrow].
        * assert (forall c, In c (c0 :: t) -> Qle c (max_cost c0 t)) by (intros c [<-|Hi]; auto).
          revert H0. generalize (max_cost c0 t). clear - Hall. intros mx Hm r0 Hr.
          induction Hall as [|x y l m Hxy _ IH]; [destruct Hr|].
          destruct Hr as [<-|Hr].
          -- exists y. split; [now apply relation_cost_rows|apply Hm; now left].
          -- apply IH; auto. intros c Hc. apply Hm. now right.
  Qed.

  Definition cost_of (bound : list string) (a : value) : Q :=
    match calculate_cost find bound a with Ok c => c | _ => 0%Q end.

  Lemma rank_ok bound todo m : rank find bound todo = Ok m ->
    m = sort_by (cost_of bound) todo /\ forall x, In x todo -> is_cost bound x (cost_of bound x).
  Proof.
    unfold rank. intros H. apply obind_ok in H as (rs & Hrs & H). inversion H; subst. clear H.
    apply omap_ok in Hrs.
    assert (G : rs = map (fun a => (cost_of bound a, a)) todo /\ forall x, In x todo -> is_cost bound x (cost_of bound x)).
    { induction Hrs as [|a r todo rs Ha _ IH]; [split; [reflexivity|intros x []]|].
      apply obind_ok in Ha as (c & Hc & Ha). inversion Ha; subst. destruct IH as [-> IH].
      assert (cost_of bound a = c) by (unfold cost_of; now rewrite Hc). split.
      - cbn [map]. now rewrite H.
      - intros x [<-|Hx]; auto. rewrite H. now apply calculate_cost_is. }
    destruct G as [-> G]. split; auto. rewrite cost_sort_map, map_map. cbn [snd]. now rewrite map_id.
  Qed.

  Lemma is_body_iff t : is_body t = true <-> exists b, body t b.
  Proof.
    split.
    - destruct t as [| | | | | | | |[|[] l]|]; try discriminate. intros _. eexists. constructor.
    - intros (b & Hb). inversion Hb; subst. reflexivity.
  Qed.
  Lemma is_body_false t : is_body t = false -> forall b, ~ body t b.
  Proof. intros H b Hb. assert (is_body t = true) by (apply is_body_iff; eauto). congruence. Qed.

  Lemma mentions_variables x v : mentions x v <-> In x (atom_variables v).
  Proof.
    split.
    - induction 1.
      + now left.
      + apply atom_variables_tuple. eauto.
      + apply atom_variables_list. eauto.
    - induction v using value_ind'; try (intros []; fail).
      + intros [->|[]]. constructor.
      + rewrite atom_variables_tuple. intros (a & Ha & Hx). rewrite Forall_forall in H.
        econstructor; [exact Ha|]. now apply H.
      + rewrite atom_variables_list. intros (a & Ha & Hx). rewrite Forall_forall in H.
        econstructor; [exact Ha|]. now apply H.
  Qed.

  (** ** reordering keeps the variables and the leaves *)
  Scheme reordered_mind := Minimality for reordered Sort Prop
  with reordered_atoms_mind := Minimality for reordered_atoms Sort Prop
  with reordered_atom_mind := Minimality for reordered_atom Sort Prop
  with reordered_arguments_mind := Minimality for reordered_arguments Sort Prop.
  Combined Scheme reordered_mutind from reordered_mind, reordered_atoms_mind, reordered_atom_mind, reordered_arguments_mind.

  Lemma flat_map_leaves_perm l m : Permutation l m -> Permutation (flat_map leaves l) (flat_map leaves m).
  Proof.
    induction 1; cbn [flat_map]; auto.
    - now apply Permutation_app_head.
    - rewrite !app_assoc. apply Permutation_app_tail, Permutation_app_comm.
    - eapply perm_trans; eauto.
  Qed.

  Lemma reordered_leaves_all :
    (forall l m, reordered l m -> Permutation (flat_map leaves l) (flat_map leaves m)) /\
    (forall l m, reordered_atoms l m -> Permutation (flat_map leaves l) (flat_map leaves m)) /\
    (forall a b, reordered_atom a b -> Permutation (leaves a) (leaves b)) /\
    (forall l m, reordered_arguments l m -> Permutation (flat_map leaves l) (flat_map leaves m)).
  Proof.
    apply reordered_mutind.
    - intros l m m' Hp _ IH. eapply perm_trans; [|exact IH]. now apply flat_map_leaves_perm.
    - constructor.
    - intros a a' l l' _ IHa _ IHl. cbn [flat_map]. now apply Permutation_app.
    - intros a. apply Permutation_refl.
    - intros a args args' [->| ->] _ IH; exact IH.
    - constructor.
    - intros t l l' _ _ IH. cbn [flat_map]. now apply Permutation_app_head.
    - intros t b b' l l' Hb _ IHb _ IHl. inversion Hb; subst. cbn [flat_map]. now apply Permutation_app.
  Qed.

  Lemma leaves_variables x v : In x (atom_variables v) <-> In (VVar x) (leaves v).
  Proof.
    induction v using value_ind'; try (split; [intros []|intros [E|[]]; discriminate]; fail).
    - cbn. split; intros [E|[]]; [subst|injection E as ->]; auto.
    - rewrite atom_variables_tuple. cbn [leaves]. rewrite in_flat_map. rewrite Forall_forall in H.
      split; intros (a & Ha & Hx); exists a; (split; [exact Ha|]); now apply H.
    - rewrite atom_variables_list. cbn [leaves]. rewrite in_flat_map. rewrite Forall_forall in H.
      split; intros (a & Ha & Hx); exists a; (split; [exact Ha|]); now apply H.
  Qed.

  Scheme cf_mind := Minimality for cheapest_first Sort Prop
  with ca_mind := Minimality for cheapest_atom Sort Prop
  with car_mind := Minimality for cheapest_arguments Sort Prop.
  Combined Scheme cheapest_mutind from cf_mind, ca_mind, car_mind.

  Lemma cheapest_reordered_all :
    (forall b l m, cheapest_first relations INFINITE b l m -> reordered l m) /\
    (forall b a a', cheapest_atom relations INFINITE b a a' -> reordered_atom a a') /\
    (forall b l m, cheapest_arguments relations INFINITE b l m -> reordered_arguments l m).
  Proof.
    apply cheapest_mutind.
    - intros b. apply (reordered_intro [] [] []); constructor.
    - intros bound bound' f todo a a' rest result _ (Hp & _) _ Ha _ _ Hr.
      inversion Hr as [l m m' Hp' Hm]; subst.
      apply (reordered_intro todo (a :: m) (a' :: result)); [|now constructor].
      eapply perm_trans; [exact Hp|]. now constructor.
    - intros bound a _. constructor.
    - intros bound a args args' t b Ha _ _ _ IH. econstructor; eauto.
    - constructor.
    - intros bound t l l' Hn _ IH. now constructor.
    - intros bound t b b' l l' Hb _ IHb _ IHl. econstructor; eauto.
  Qed.

  (** ** sorting *)

  Section Arguments.
    Variable srt : list string -> list value -> outcome (list value).
    Hypothesis Hsrt : forall bound l m, srt bound l = Ok m -> cheapest_first relations INFINITE bound l m.

    Lemma sort_argument_ok bound l : forall m, omap (sort_argument srt bound) l = Ok m ->
      cheapest_arguments relations INFINITE bound l m.
    Proof.
      intros m H. apply omap_ok in H. induction H as [|t t' l l' Ht _ IH]; [constructor|].
      destruct (is_body t) eqn:E.
      - pose proof E as E'. apply is_body_iff in E' as (b & Hb). inversion Hb; subst.
        cbn [sort_argument] in Ht. rewrite E in Ht. apply obind_ok in Ht as (b' & Hb' & Ht). inversion Ht; subst.
        econstructor; eauto.
      - assert (t' = t) as ->.
        { unfold sort_argument in Ht. destruct t; try (now inversion Ht). rewrite E in Ht. now inversion Ht. }
        apply car_same; auto. now apply is_body_false.
    Qed.

    Lemma sort_arguments_ok bound a a' : sort_arguments srt bound a = Ok a' ->
      cheapest_atom relations INFINITE bound a a'.
    Proof.
      intros H.
      assert (G : forall l, (a = VTuple l \/ a = VList l) ->
        obind (omap (sort_argument srt bound) l) (fun l' => Ok (if existsb is_body l then VTuple l' else a)) = Ok a' ->
        cheapest_atom relations INFINITE bound a a').
      { intros l Hl H'. apply obind_ok in H' as (l' & Hl' & H'). destruct (existsb is_body l) eqn:E.
        - apply existsb_exists in E as (t & Ht & Eb). apply is_body_iff in Eb as (b & Hb).
          inversion H'; subst. apply (ca_arguments relations INFINITE bound a l l' t b Hl Ht Hb). now apply sort_argument_ok.
        - inversion H'; subst. apply ca_same. intros args t b Ha Ht.
          assert (args = l) by (destruct Hl as [->| ->], Ha as [Ha|Ha]; inversion Ha; reflexivity). subst args.
          apply is_body_false. destruct (is_body t) eqn:Et; auto.
          assert (existsb is_body l = true); [|congruence]. apply existsb_exists. eauto. }
      destruct a; cbn [sort_arguments] in H; try (inversion H; subst; apply ca_same; intros args0 t0 b0 [E|E]; discriminate);
        (apply (G l); [auto|exact H]).
    Qed.

    Lemma sort_rest_ok n : forall bound todo m, sort_rest find srt n bound todo = Ok m ->
      cheapest_first relations INFINITE bound todo m.
    Proof.
      induction n as [|n IH]; intros bound [|a todo] m H; cbn [sort_rest] in H; try discriminate;
        try (inversion H; constructor).
      apply obind_ok in H as (sorted & Hs & H). apply rank_ok in Hs as (-> & Hc).
      pose proof (sort_by_ranking (cost_of bound) (a :: todo)) as Hr.
      destruct (sort_by (cost_of bound) (a :: todo)) as [|x rest]; [discriminate|].
      apply obind_ok in H as (x' & Hx & H). apply obind_ok in H as (r & Hr' & H). inversion H; subst.
      apply sort_arguments_ok in Hx. eapply cf_cons; eauto.
      intros y. rewrite in_app_iff, mentions_variables.
      assert (In y (atom_variables x') <-> In y (atom_variables x)); [|tauto].
      apply cheapest_reordered_all in Hx. apply reordered_leaves_all in Hx. rewrite !leaves_variables.
      split; apply Permutation_in; [now symmetry|exact Hx].
    Qed.
  End Arguments.

  Lemma sort_depth_ok d : forall bound l m, sort_depth find d bound l = Ok m ->
    cheapest_first relations INFINITE bound l m.
  Proof.
    induction d as [|d IH]; intros bound l m H; cbn [sort_depth] in H; [discriminate|].
    eapply sort_rest_ok; eauto.
  Qed.
  Lemma sort_ok l m : sort find l = Ok m -> cheapest_first relations INFINITE [] l m.
  Proof. apply sort_depth_ok. Qed.

  (** ** it ends *)

  Lemma first_fuel v : first v <> OutOfFuel.
  Proof. destruct v as [| | | |s| | |l|l|]; cbn [first]; try discriminate; [destruct s|destruct l|destruct l]; discriminate. Qed.
  Lemma calculate_cost_fuel bound a : calculate_cost find bound a <> OutOfFuel.
  Proof.
    unfold calculate_cost. pose proof (first_fuel a). destruct (first a) as [p|e|]; cbn [obind]; try congruence.
    destruct (relations_of find p) eqn:Er; cbn [obind]; try congruence.
    - set (args := match elements a with Some l => tl l | None => [] end).
      destruct (omap (relation_cost bound args) a0) as [[|c t]|e|] eqn:E; cbn [obind]; try congruence.
      exfalso. revert E. apply omap_fuel. intros r _. unfold relation_cost. destruct (z_relation r); [|discriminate].
      destruct (Nat.eqb _ _); [|discriminate]. destruct (Qeq_bool _ _); discriminate.
    - destruct p; discriminate.
  Qed.
  Lemma rank_fuel bound todo : rank find bound todo <> OutOfFuel.
  Proof.
    unfold rank. destruct (omap _ todo) eqn:E; cbn [obind]; try congruence.
    exfalso. revert E. apply omap_fuel. intros a _. pose proof (calculate_cost_fuel bound a).
    destruct (calculate_cost find bound a); cbn [obind]; congruence.
  Qed.

  Lemma depth_in x l : In x l -> depth x <= fold_right (fun x n => Nat.max (depth x) n) 0 l.
  Proof. induction l as [|y l IH]; intros []; cbn [fold_right]; [subst; lia|]. specialize (IH H). lia. Qed.

  Lemma sort_depth_fuel d : forall bound l, depth (VList l) <= d -> sort_depth find d bound l <> OutOfFuel.
  Proof.
    induction d as [|d IH]; intros bound l Hd; [cbn [depth] in Hd; lia|]. cbn [sort_depth].
    assert (Hin : forall x, In x l -> depth x <= d).
    { intros x Hx. apply depth_in in Hx. cbn [depth] in Hd. lia. }
    assert (G : forall n bound todo, length todo <= n -> (forall x, In x todo -> depth x <= d) ->
              sort_rest find (sort_depth find d) n bound todo <> OutOfFuel).
    { clear bound l Hd Hin. induction n as [|n IHn]; intros bound [|a todo] Hl Ht; cbn [sort_rest]; try discriminate.
      - cbn in Hl. lia.
      - destruct (rank find bound (a :: todo)) as [sorted|e|] eqn:Er; cbn [obind]; try congruence.
        2:{ now apply rank_fuel in Er. }
        apply rank_ok in Er as (-> & _).
        pose proof (sort_by_perm (cost_of bound) (a :: todo)) as Hp.
        destruct (sort_by (cost_of bound) (a :: todo)) as [|x rest]; [discriminate|].
        assert (Hx : depth x <= d) by (apply Ht; eapply Permutation_in; [symmetry; exact Hp|now left]).
        assert (Hargs : sort_arguments (sort_depth find d) bound x <> OutOfFuel).
        { assert (Ha : forall l, depth (VTuple l) <= d ->
            omap (sort_argument (sort_depth find d) bound) l <> OutOfFuel).
          { intros l Hl'. apply omap_fuel. intros t Ht'. unfold sort_argument.
            destruct t as [| | | | | | | |b|]; try discriminate. destruct (is_body (VList b)); [|discriminate].
            apply depth_in in Ht'. cbn [depth] in Hl'.
            assert (sort_depth find d bound b <> OutOfFuel) by (apply IH; lia).
            destruct (sort_depth find d bound b); cbn [obind]; congruence. }
          destruct x as [| | | | | | |l|l|]; cbn [sort_arguments]; try discriminate.
          - specialize (Ha l Hx). destruct (omap _ l); cbn [obind]; congruence.
          - specialize (Ha l Hx). destruct (omap _ l); cbn [obind]; congruence. }
        destruct (sort_arguments (sort_depth find d) bound x) as [x'|e|]; cbn [obind]; try congruence.
        assert (sort_rest find (sort_depth find d) n (bound ++ atom_variables x') rest <> OutOfFuel).
        { apply IHn.
          - apply Permutation_length in Hp. cbn in Hp, Hl. lia.
          - intros y Hy. apply Ht. eapply Permutation_in; [symmetry; exact Hp|now right]. }
        destruct (sort_rest _ _ n _ rest); cbn [obind]; congruence. }
    apply G; auto.
  Qed.
  Lemma sort_fuel l : sort find l <> OutOfFuel.
  Proof. apply sort_depth_fuel. apply le_n. Qed.
End Cost.
