(** * The composed meaning follows the rules *)

From Coq Require Import ZArith String Ascii List Bool Lia.
From Verif Require Import Py PyFacts Effects EffectsFacts Grammar Earley Composer ComposerSpec ComposerProofs.
Import ListNotations.
Local Open Scope string_scope.
Local Open Scope list_scope.
Local Open Scope monad_scope.

Definition children_loop (m : vmap) :=
  fix loop (children : list ctree) (conss : list constituent) (sems infs exe : list value)
               : M nat (list value * list value * list value) :=
         match children, conss with
         | child :: children', c :: conss' =>
             match child with
             | Node _ [] _ cr =>
                 match m_sem (g_mean cr) with
                 | Some f => v <- call f [] ;; loop children' conss' (sems ++ [v]) infs exe
                 | None => loop children' conss' sems infs exe
                 end
             | _ =>
                 vars <- lookup_all m (k_args c) ;;
                 p <- compose child vars ;;
                 exe' <- extend exe (snd p) ;;
                 loop children' conss' (sems ++ [fst (fst p)]) (infs ++ snd (fst p)) exe'
             end
         | _, _ => ret (sems, infs, exe)
         end.

Lemma compose_eq cat ts form r incoming :
  compose (Node cat ts form r) incoming =
  (m <- create_map r incoming ;;
   acc <- children_loop m ts (g_cons r) [] [] [] ;;
   compose_node r m (fst (fst acc)) (snd (fst acc)) (snd acc)).
Proof. reflexivity. Qed.

Lemma lookup_all_result m args n vs n' : lookup_all m args n = (Ok vs, n') ->
  n' = n /\ Forall2 (fun a v => mget a m = Some v) args vs.
Proof.
  revert vs n'. induction args as [|a args IH]; intros vs n' H; cbn in H.
  - injection H as <- <-. auto.
  - destruct (mget a m) as [v|] eqn:E; [|discriminate].
    unfold bind in H. destruct (lookup_all m args n) as [[us| |] n1]; try discriminate.
    destruct (IH _ _ eq_refl) as (-> & F). injection H as <- <-. auto.
Qed.

Lemma extend_result l v n l' n' : @extend nat l v n = (Ok l', n') ->
  n' = n /\ exists e, elements v = Some e /\ l' = l ++ e.
Proof. unfold extend. destruct (elements v); cbn; intros H; [injection H as <- <-; eauto|discriminate]. Qed.

(** what is known about the names that a part of the tree adds *)
Record fresh_names (own_name : list nat -> string -> string -> Prop) (n n' : nat) : Prop := {
  f_between : forall p x v, own_name p x v -> between n n' v;
  f_inj : forall p q x y v, own_name p x v -> own_name q y v -> p = q /\ x = y
}.

Definition good (t : ctree) : Prop := forall incoming n res n',
  compose t incoming n = (Ok res, n') ->
  n <= n' /\ exists sigma, explains sigma t incoming res /\ fresh_names (own sigma t) n n'.

(** the names of a list of children, with the constituents *)
Definition own_child (tau : nat -> assignment) (ts : list ctree) (conss : list constituent)
  (p : list nat) (x v : string) : Prop :=
  exists i q t c, p = i :: q /\ nth_error ts i = Some t /\ nth_error conss i = Some c /\
    own (tau i) t q x v.

Definition nowhere : assignment := fun _ _ => None.
Definition from_list (l : list assignment) (i : nat) : assignment := nth i l nowhere.

Lemma own_child_cons sigma l t ts c conss n n1 n' :
  n <= n1 -> n1 <= n' ->
  fresh_names (own sigma t) n n1 -> fresh_names (own_child (from_list l) ts conss) n1 n' ->
  fresh_names (own_child (from_list (sigma :: l)) (t :: ts) (c :: conss)) n n'.
Proof.
  intros L1 L2 [B1 I1] [B2 I2].
  assert (Cut : forall p x v, own_child (from_list (sigma :: l)) (t :: ts) (c :: conss) p x v ->
    (exists q, p = 0 :: q /\ own sigma t q x v) \/
    (exists i q, p = S i :: q /\ own_child (from_list l) ts conss (i :: q) x v)).
  { intros p x v (i & q & t' & c' & -> & Et & Ec & O). destruct i as [|i]; cbn in Et, Ec.
    - injection Et as <-. left. exists q. auto.
    - right. exists i, q. split; auto. exists i, q, t', c'. auto. }
  constructor.
  - intros p x v O. destruct (Cut _ _ _ O) as [(q & -> & O')|(i & q & -> & O')].
    + apply (between_mono n n1); auto. now apply (B1 q x).
    + apply (between_mono n1 n'); auto. now apply (B2 (i :: q) x).
  - intros p p' x y v O O'.
    destruct (Cut _ _ _ O) as [(q & -> & U)|(i & q & -> & U)], (Cut _ _ _ O') as [(q' & -> & U')|(i' & q' & -> & U')].
    + destruct (I1 _ _ _ _ _ U U') as (-> & ->). auto.
    + destruct (B1 _ _ _ U) as (k & Hk & ->), (B2 _ _ _ U') as (k' & Hk' & E). apply var_name_inj in E. lia.
    + destruct (B1 _ _ _ U') as (k & Hk & ->), (B2 _ _ _ U) as (k' & Hk' & E). apply var_name_inj in E. lia.
    + destruct (I2 _ _ _ _ _ U U') as (E & ->). injection E as -> ->. auto.
Qed.

Lemma no_own_child tau ts conss n n' : ts = [] \/ conss = [] -> fresh_names (own_child tau ts conss) n n'.
Proof.
  intros H. assert (N : forall p x v, ~ own_child tau ts conss p x v).
  { intros p x v (i & q & t & c & -> & Et & Ec & _). destruct H as [->| ->]; destruct i; discriminate. }
  constructor; intros; exfalso; eapply N; eauto.
Qed.

Lemma no_own_leaf sigma cat form r n n' : fresh_names (own sigma (Node cat [] form r)) n n'.
Proof.
  assert (N : forall p x v, ~ own sigma (Node cat [] form r) p x v).
  { intros p x v (r' & I & _). inversion I; subst. destruct i; discriminate. }
  constructor; intros; exfalso; eapply N; eauto.
Qed.

Lemma loop_good m ts : Forall good ts -> forall conss sems infs exe n sems' infs' exe' n',
  children_loop m ts conss sems infs exe n = (Ok (sems', infs', exe'), n') ->
  n <= n' /\ exists l s i e,
    sems' = sems ++ s /\ infs' = infs ++ i /\ exe' = exe ++ e /\
    (forall a, (forall x v, mget x m = Some v -> a x = Some v) ->
       explain_children a (from_list l) ts conss s i e) /\
    fresh_names (own_child (from_list l) ts conss) n n'.
Proof.
  induction 1 as [|t ts Ht Hts IH]; intros conss sems infs exe n sems' infs' exe' n' H.
  - cbn in H. injection H as <- <- <- <-. split; auto. exists [], [], [], [].
    rewrite !app_nil_r. repeat match goal with |- _ /\ _ => split end; auto.
    + intros a _. constructor.
    + apply no_own_child. auto.
  - destruct conss as [|c conss].
    { cbn in H. injection H as <- <- <- <-. split; auto. exists [], [], [], [].
      rewrite !app_nil_r. repeat match goal with |- _ /\ _ => split end; auto.
      - intros a _. constructor.
      - apply no_own_child. auto. }
    destruct t as [cat tts form r]. destruct tts as [|t1 tts].
    + cbn in H. destruct (m_sem (g_mean r)) as [f|] eqn:Ef.
      * unfold bind, call in H. destruct (f []) as [v| |] eqn:Ev; try discriminate.
        destruct (IH _ _ _ _ _ _ _ _ _ H) as (L & l & s & i & e & -> & -> & -> & X & F).
        split; auto. exists (nowhere :: l), (v :: s), i, e.
        repeat match goal with |- _ /\ _ => split end; auto.
        -- now rewrite <- app_assoc.
        -- intros a Ha. apply spoken_leaf with (f := f); [exact Ef|exact Ev|]. apply X. exact Ha.
        -- apply (own_child_cons _ _ _ _ _ _ n n n'); auto. apply no_own_leaf.
      * destruct (IH _ _ _ _ _ _ _ _ _ H) as (L & l & s & i & e & -> & -> & -> & X & F).
        split; auto. exists (nowhere :: l), s, i, e.
        repeat match goal with |- _ /\ _ => split end; auto.
        -- intros a Ha. apply silent_leaf; [exact Ef|]. apply X. exact Ha.
        -- apply (own_child_cons _ _ _ _ _ _ n n n'); auto. apply no_own_leaf.
    + remember (Node cat (t1 :: tts) form r) as t eqn:Et.
      assert (E : children_loop m (t :: ts) (c :: conss) sems infs exe =
        (vars <- lookup_all m (k_args c) ;;
         p <- compose t vars ;;
         exe' <- extend exe (snd p) ;;
         children_loop m ts conss (sems ++ [fst (fst p)]) (infs ++ snd (fst p)) exe')) by (subst t; reflexivity).
      rewrite E in H. clear E.
      apply bind_ok in H as (vars & n1 & H1 & H).
      apply bind_ok in H as (p & n2 & H2 & H).
      apply bind_ok in H as (exe1 & n3 & H3 & H).
      destruct (lookup_all_result _ _ _ _ _ H1) as (-> & Vs).
      destruct (Ht _ _ _ _ H2) as (L2 & sigma & Xs & Fs).
      destruct (extend_result _ _ _ _ _ H3) as (-> & xs & Exs & ->).
      destruct (IH _ _ _ _ _ _ _ _ _ H) as (L & l & s & i & e & -> & -> & -> & X & F).
      destruct p as ((ps & pi) & px). cbn [fst snd] in *.
      split; [lia|]. exists (sigma :: l), (ps :: s), (pi ++ i), (xs ++ e).
      repeat match goal with |- _ /\ _ => split end; try now rewrite <- app_assoc.
      * intros a Ha. subst t. apply inner_node with (vars := vars) (x := px); [|exact Xs|exact Exs|].
        -- clear -Vs Ha. induction Vs; constructor; auto.
        -- apply X. exact Ha.
      * now apply (own_child_cons _ _ _ _ _ _ n n2 n').
Qed.

Theorem compose_good t : good t.
Proof.
  induction t as [cat ts form r IH] using ctree_ind. intros incoming n res n' H.
  rewrite compose_eq in H.
  apply bind_ok in H as (m & n1 & H1 & H).
  apply bind_ok in H as (((sems & infs) & exe) & n2 & H2 & H). cbn [fst snd] in H.
  destruct (create_map_result _ _ _ _ _ H1) as (L1 & K1 & A1 & m0 & K0 & G1).
  destruct (loop_good _ _ IH _ _ _ _ _ _ _ _ _ H2) as (L2 & l & s & i & e & -> & -> & -> & X & F).
  unfold compose_node in H.
  apply bind_ok in H as (sem & n3 & H3 & H).
  apply bind_ok in H as (x & n4 & H4 & H).
  apply bind_ok in H as (d & n5 & H5 & H).
  apply bind_ok in H as (m' & n6 & H6 & H).
  injection H as <- <-.
  unfold call_sem in H3. destruct (m_sem (g_mean r)) as [f|] eqn:Ef; [|discriminate].
  unfold call in H3. injection H3 as H3 <-. cbn [app] in *.
  assert (Hx : n4 = n2 /\ executable_atoms r s e x).
  { destruct (m_exec (g_mean r)) as [g|] eqn:Eg; cbn in H4.
    - unfold call in H4. injection H4 as H4 <-. split; auto. now apply exec_own with (f := g).
    - injection H4 as <- <-. split; auto. now apply exec_children. }
  destruct Hx as (-> & Hx).
  assert (Hd : n5 = n2 /\ exists dl, dialog_atoms r s dl /\ d = i ++ dl).
  { destruct (m_dialog (g_mean r)) as [al|g] eqn:Eg; cbn in H5.
    - injection H5 as <- <-. split; auto. exists al. split; auto. now constructor.
    - destruct (g s) as [dv| |] eqn:H7'; try discriminate. rename H5 into H7. rename H7' into H5.
      destruct (extend_result _ _ _ _ _ H7) as (-> & el & Eel & ->). split; auto.
      exists el. split; auto. now apply dialog_call with (f := g) (v := dv). }
  destruct Hd as (-> & dl & Hd & ->).
  destruct (extend_map_result _ _ _ _ _ H6) as (G6 & K6).
  pose proof (g_le _ _ _ _ G6) as L6.
  split; [lia|].
  exists (fun p => match p with [] => fun x => mget x m' | j :: q => from_list l j q end).
  split.
  - rewrite !unify_rename.
    replace (map (unify_variables m') (i ++ dl)) with (map (rename (fun x => mget x m')) (i ++ dl))
      by (apply map_ext; intros; now rewrite unify_rename).
    apply explains_node with (sigma := fun p => match p with [] => fun x => mget x m' | j :: q => from_list l j q end)
      (sems := s) (exe := e) (f := f); auto.
    + apply X. apply (g_keep _ _ _ _ G6).
    + intros j a Ej NI. destruct (A1 j a Ej NI) as (v & Ev & Em). exists v. split; auto.
      now apply (g_keep _ _ _ _ G6).
    + intros y. rewrite K6, K1. reflexivity.
  - (* names *)
    assert (Root : forall y v, ~ In y (k_args (g_ante r)) -> mget y m' = Some v ->
      (between n n1 v /\ mget y m0 = None /\ mget y m = Some v) \/
      (between n2 n6 v /\ mget y m = None)).
    { intros y v NI E. destruct (mget y m0) as [w|] eqn:E0.
      { exfalso. apply NI, K0. congruence. }
      destruct (mget y m) as [w|] eqn:Em.
      - left. pose proof (g_keep _ _ _ _ G6 _ _ Em). assert (w = v) by congruence. subst.
        repeat split; auto. now apply (g_new _ _ _ _ G1 y).
      - right. split; auto. now apply (g_new _ _ _ _ G6 y). }
    assert (Cut : forall p y v,
      own (fun p => match p with [] => fun x => mget x m' | j :: q => from_list l j q end)
          (Node cat ts form r) p y v ->
      (p = [] /\ ~ In y (k_args (g_ante r)) /\ mget y m' = Some v) \/
      (p <> [] /\ own_child (from_list l) ts (g_cons r) p y v)).
    { intros p y v (r' & I & NI & E). inversion I; subst.
      - left. auto.
      - right. split; [discriminate|]. exists i0, p0, t, c. repeat split; auto. exists r'. auto. }
    constructor.
    + intros p y v O. destruct (Cut _ _ _ O) as [(-> & NI & E)|(_ & O')].
      * destruct (Root _ _ NI E) as [(B & _)|(B & _)]; eapply between_mono; try exact B; lia.
      * eapply between_mono; [| |exact (f_between _ _ _ F _ _ _ O')]; lia.
    + intros p q y z v O O'.
      destruct (Cut _ _ _ O) as [(-> & NI & E)|(Np & U)], (Cut _ _ _ O') as [(-> & NI' & E')|(Np' & U')].
      * split; auto.
        destruct (Root _ _ NI E) as [(B & E0 & Em)|(B & Em)], (Root _ _ NI' E') as [(B' & E0' & Em')|(B' & Em')].
        -- apply (g_inj _ _ _ _ G1 y z v); auto.
        -- destruct B as (k & Hk & ->), B' as (k' & Hk' & Ek). apply var_name_inj in Ek. lia.
        -- destruct B as (k & Hk & ->), B' as (k' & Hk' & Ek). apply var_name_inj in Ek. lia.
        -- apply (g_inj _ _ _ _ G6 y z v); auto.
      * exfalso. destruct (f_between _ _ _ F _ _ _ U') as (k & Hk & ->).
        destruct (Root _ _ NI E) as [((k' & Hk' & Ek) & _)|((k' & Hk' & Ek) & _)]; apply var_name_inj in Ek; lia.
      * exfalso. destruct (f_between _ _ _ F _ _ _ U) as (k & Hk & ->).
        destruct (Root _ _ NI' E') as [((k' & Hk' & Ek) & _)|((k' & Hk' & Ek) & _)]; apply var_name_inj in Ek; lia.
      * exact (f_inj _ _ _ F _ _ _ _ _ U U').
Qed.
