(** * Proofs about the core predicates, part 2 *)

From Coq Require Import ZArith QArith Qreduction String Ascii List Bool Lia Arith.
From Verif Require Import Py PyFacts ReprProofs Effects EffectsFacts Solver SolverSpec
  SolverProofs SolverProofs2 MatchProofs MatchProofs2 Atoms AtomsFacts CoreModule CoreSpec CoreProofs.
Import ListNotations.
Local Close Scope Q_scope.
Local Open Scope nat_scope.
Local Open Scope string_scope.
Local Open Scope list_scope.

(** ** orders *)

Lemma Qlt_bool_iff p q : Qlt_bool p q = true <-> (p < q)%Q.
Proof.
  unfold Qlt_bool. rewrite negb_true_iff. split.
  - intros H. apply Qnot_le_lt. intros F. apply Qle_bool_iff in F. congruence.
  - intros H. destruct (Qle_bool q p) eqn:E; auto. apply Qle_bool_iff in E.
    exfalso. eapply Qlt_not_le; eauto.
Qed.

Lemma Qlt_bool_false p q : Qlt_bool p q = false <-> (q <= p)%Q.
Proof.
  split.
  - intros H. apply Qnot_lt_le. intros F. apply Qlt_bool_iff in F. congruence.
  - intros H. destruct (Qlt_bool p q) eqn:E; auto. apply Qlt_bool_iff in E.
    exfalso. eapply Qlt_not_le; eauto.
Qed.

Lemma py_lt_num a b p q : num_of a = Some p -> num_of b = Some q -> py_lt a b = Some (Qlt_bool p q).
Proof. intros Ha Hb. destruct a; simpl in Ha; try discriminate; inversion Ha; subst; simpl; rewrite Hb; auto. Qed.

Lemma numbers_lt : weak_order is_number py_lt.
Proof.
  split.
  - intros a b (p & Ha) (q & Hb). now rewrite (py_lt_num a b p q).
  - intros a b c (p & Ha) (q & Hb) (r & Hc).
    rewrite (py_lt_num a b p q), (py_lt_num b c q r), (py_lt_num a c p r) by assumption.
    intros [= H1] [= H2]. f_equal. rewrite Qlt_bool_iff in *. eapply Qlt_trans; eauto.
  - intros a b c (p & Ha) (q & Hb) (r & Hc).
    rewrite (py_lt_num a b p q), (py_lt_num c b r q), (py_lt_num a c p r) by assumption.
    intros [= H1] [= H2]. f_equal. rewrite Qlt_bool_iff in *. rewrite Qlt_bool_false in H2.
    eapply Qlt_le_trans; eauto.
Qed.

Lemma numbers_gt : weak_order is_number py_gt.
Proof.
  unfold py_gt. split.
  - intros a b (p & Ha) (q & Hb). now rewrite (py_lt_num b a q p).
  - intros a b c (p & Ha) (q & Hb) (r & Hc).
    rewrite (py_lt_num b a q p), (py_lt_num c b r q), (py_lt_num c a r p) by assumption.
    intros [= H1] [= H2]. f_equal. rewrite Qlt_bool_iff in *. eapply Qlt_trans; eauto.
  - intros a b c (p & Ha) (q & Hb) (r & Hc).
    rewrite (py_lt_num b a q p), (py_lt_num b c q r), (py_lt_num c a r p) by assumption.
    intros [= H1] [= H2]. f_equal. rewrite Qlt_bool_iff in *. rewrite Qlt_bool_false in H2.
    eapply Qle_lt_trans; eauto.
Qed.

Lemma nat_of_ascii_inj a b : nat_of_ascii a = nat_of_ascii b -> a = b.
Proof. intros H. rewrite <- (ascii_nat_embedding a), <- (ascii_nat_embedding b). now rewrite H. Qed.

Lemma str_lt_cases s : forall t,
  (str_lt s t = true /\ str_lt t s = false /\ s <> t) \/
  (str_lt s t = false /\ str_lt t s = true /\ s <> t) \/
  (str_lt s t = false /\ str_lt t s = false /\ s = t).
Proof.
  induction s as [|a s IH]; intros [|b t]; simpl; try tauto.
  - left. repeat split; auto. discriminate.
  - right; left. repeat split; auto. discriminate.
  - rewrite (Ascii.eqb_sym b a). destruct (Ascii.eqb_spec a b) as [->|Hab].
    + destruct (IH t) as [(A & B & C)|[(A & B & C)|(A & B & C)]]; rewrite A, B.
      * left. repeat split; auto. congruence.
      * right; left. repeat split; auto. congruence.
      * right; right. repeat split; auto. congruence.
    + assert (nat_of_ascii a <> nat_of_ascii b) by (intros F; apply Hab; now apply nat_of_ascii_inj).
      destruct (Nat.ltb_spec (nat_of_ascii a) (nat_of_ascii b)), (Nat.ltb_spec (nat_of_ascii b) (nat_of_ascii a)); try lia.
      * left. repeat split; auto. congruence.
      * right; left. repeat split; auto. congruence.
Qed.

Lemma str_lt_trans s : forall t u, str_lt s t = true -> str_lt t u = true -> str_lt s u = true.
Proof.
  induction s as [|a s IH]; intros [|b t] [|c u]; simpl; auto; try discriminate.
  destruct (Ascii.eqb_spec a b) as [->|Hab]; destruct (Ascii.eqb_spec b c) as [->|Hbc]; intros H1 H2.
  - rewrite ?Ascii.eqb_refl. eauto.
  - auto.
  - rewrite (proj2 (Ascii.eqb_neq a c)) by auto. auto.
  - apply Nat.ltb_lt in H1, H2. rewrite (proj2 (Ascii.eqb_neq a c)).
    + apply Nat.ltb_lt. lia.
    + intros ->. lia.
Qed.

Lemma str_lt_negtrans s t u : str_lt s t = true -> str_lt u t = false -> str_lt s u = true.
Proof.
  intros H1 H2. destruct (str_lt_cases u t) as [(A & B & C)|[(A & B & C)|(A & B & ->)]]; try congruence.
  eapply str_lt_trans; eauto.
Qed.

Lemma texts_lt : weak_order is_text py_lt.
Proof.
  split.
  - intros a b (s & ->) (t & ->). discriminate.
  - intros a b c (s & ->) (t & ->) (u & ->). simpl. intros [= H1] [= H2]. f_equal. eapply str_lt_trans; eauto.
  - intros a b c (s & ->) (t & ->) (u & ->). simpl. intros [= H1] [= H2]. f_equal. eapply str_lt_negtrans; eauto.
Qed.

Lemma texts_gt : weak_order is_text py_gt.
Proof.
  unfold py_gt. split.
  - intros a b (s & ->) (t & ->). discriminate.
  - intros a b c (s & ->) (t & ->) (u & ->). simpl. intros [= H1] [= H2]. f_equal. eapply str_lt_trans; eauto.
  - intros a b c (s & ->) (t & ->) (u & ->). simpl. intros [= H1] [= H2]. f_equal.
    destruct (str_lt_cases t u) as [(A & B & C)|[(A & B & C)|(A & B & ->)]]; try congruence.
    eapply str_lt_trans; eauto.
Qed.

Section Core2.
  Context {W : Type}.
  Variable mods : list (modul W).

  Ltac core q := erewrite (core_solve _ _ _ q) by (try eassumption; try reflexivity; discriminate).

  (** ** C20 *)

  Lemma arg_loop P better x y rs : weak_order P better -> ~ P VNone ->
    forall done r e m (w : W),
    (forall r', In r' (done ++ rs) -> exists v, bget y r' = Some v /\ P v) ->
    (forall r', In r' rs -> bget x r' <> None) ->
    first_best better y done r m -> P m -> bget x r = Some e ->
    exists r2 e2 m2, foldM (arg_step better (VVar x) (VVar y)) (Some m, e) rs w = (Ok (Some m2, e2), w) /\
      first_best better y (done ++ rs) r2 m2 /\ P m2 /\ bget x r2 = Some e2.
  Proof.
    intros Ho HNn. induction rs as [|r1 rs IH]; intros done r e m w Hv Hx Hb Hm He.
    - exists r, e, m. rewrite app_nil_r. auto.
    - destruct (Hv r1) as (v1 & Hg1 & Hp1); [apply in_or_app; right; now left|].
      assert (Hdone : done ++ r1 :: rs = (done ++ [r1]) ++ rs) by now rewrite <- app_assoc.
      pose proof (wo_total _ _ Ho v1 m Hp1 Hm) as Ht.
      simpl. unfold arg_step at 1. unfold bind. cbn [name_of ret]. unfold lookup at 1. rewrite Hg1.
      cbn [ret]. destruct (better v1 m) as [[]|] eqn:Eb; [| |congruence]; cbn [or_throw ret].
      + destruct (bget x r1) as [e1|] eqn:Ex; [|exfalso; eapply Hx; [now left|exact Ex]].
        unfold lookup. rewrite Ex. cbn [ret].
        assert (is_none v1 = false) as -> by (destruct v1; auto; contradiction).
        rewrite Hdone in *. apply (IH (done ++ [r1]) r1 e1 v1 w); auto.
        * intros r' Hr'. apply Hx. now right.
        * split; auto. exists done, []. split; auto. split; [|intros ? ? []].
          destruct Hb as (Hgr & pre & post & -> & Hpre & Hpost).
          intros r' v' Hr' Hg'. assert (P v') as Hp'.
          { destruct (Hv r') as (v2 & Hg2 & Hp2); [|congruence].
            apply in_or_app; left; apply in_or_app; now left. }
          apply in_app_or in Hr' as [Hr'|[<-|Hr']].
          -- eapply (wo_trans _ _ Ho) with (b := m); eauto.
          -- congruence.
          -- eapply (wo_negtrans _ _ Ho) with (b := m); eauto.
      + rewrite Hdone in *. apply (IH (done ++ [r1]) r e m w); auto.
        * intros r' Hr'. apply Hx. now right.
        * destruct Hb as (Hgr & pre & post & -> & Hpre & Hpost). split; auto.
          exists pre, (post ++ [r1]). split; [now rewrite <- app_assoc|split; auto].
          intros r' v' Hr' Hg'. apply in_app_or in Hr' as [Hr'|[<-|[]]]; eauto. congruence.
  Qed.

  Lemma solve_arg p better P n x y body b (w : W) rs w1 :
    only_core mods w p -> p <> DISJUNCTION -> table_get p core_table = Some (@q_arg W better) ->
    weak_order P better -> ~ P VNone -> x <> y ->
    solve mods n (VList body) b w = (Ok (SList rs), w1) ->
    (forall r, In r rs -> exists v, bget y r = Some v /\ P v) ->
    (forall r, In r rs -> bget x r <> None) ->
    (rs = [] ->
      solve mods (S n) (VList [VTuple [VStr p; VVar x; VVar y; VList body]]) b w = (Ok (SList []), w1)) /\
    (rs <> [] ->
      exists r e v, first_best better y rs r v /\ bget x r = Some e /\
      solve mods (S n) (VList [VTuple [VStr p; VVar x; VVar y; VList body]]) b w =
      (Ok (SList [set_unbound b y v (set_unbound b x e b)]), w1)).
  Proof.
    intros H Hp Ht Ho HNn Hxy Hb Hv Hx. split.
    - intros ->. erewrite core_solve by eassumption. unfold q_arg, item. unfold bind.
      cbn [c_args c_binding nth_error ret db_values map db_value].
      unfold solve in Hb. rewrite Hb. reflexivity.
    - intros Hne. destruct rs as [|r0 rs]; [congruence|].
      destruct (Hv r0) as (v0 & Hg0 & Hp0); [now left|].
      destruct (bget x r0) as [e0|] eqn:Ex; [|exfalso; eapply Hx; [now left|exact Ex]].
      destruct (arg_loop P better x y rs Ho HNn [r0] r0 e0 v0 w1) as (r & e & v & Hf & Hfb & Hpv & He); auto.
      { intros; apply Hx; now right. }
      { split; auto. exists [], []. split; auto. split; intros ? ? []. }
      exists r, e, v. split; [exact Hfb|split; [exact He|]].
      erewrite core_solve by eassumption. unfold q_arg, item. unfold bind.
      cbn [c_args c_binding nth_error ret db_values map db_value].
      unfold solve in Hb. rewrite Hb. cbn [sres_len length sres_items ret foldM].
      unfold arg_step at 1. unfold bind. cbn [name_of ret]. unfold lookup at 1. rewrite Hg0. cbn [ret].
      unfold lookup at 1. rewrite Ex. cbn [ret].
      assert (is_none v0 = false) as -> by (destruct v0; auto; contradiction).
      rewrite Hf. cbn [of_opt]. unfold rows, ret. cbn [map].
      rewrite finish_row by reflexivity. unfold bind. unfold set_unbound.
      destruct (bget x b) eqn:Ebx.
      + erewrite match_args_bound by eassumption. destruct (bget y b) eqn:Eby.
        * erewrite match_args_bound by eassumption. reflexivity.
        * rewrite match_args_unbound by eassumption. unfold bind. cbn [subscript nth_error ret].
          rewrite Eby. reflexivity.
      + rewrite match_args_unbound by eassumption. unfold bind. cbn [subscript nth_error ret].
        rewrite Ebx. destruct (bget y b) eqn:Eby.
        * erewrite match_args_bound by eassumption. reflexivity.
        * rewrite match_args_unbound by eassumption. unfold bind. cbn [subscript nth_error ret].
          rewrite bget_bset_other by auto. rewrite Eby. reflexivity.
  Qed.

  (** ** C21 *)

  Lemma finish_put_last b c1 c2 R v (w : W) : v <> VNone -> is_var c1 = false -> is_var c2 = false ->
    finish [c1; c2; R] b (QRows [VList [VNone; VNone; v]]) w = (Ok (SList (put_result b R v)), w).
  Proof.
    intros Hv H1 H2. rewrite finish_row by reflexivity. unfold bind at 1.
    rewrite match_args_const by assumption. unfold bind. cbn [subscript nth_error ret is_none negb andb orb].
    rewrite match_args_const by assumption. unfold bind. cbn [subscript nth_error ret is_none negb andb orb].
    destruct (is_var R) eqn:E.
    - destruct R; try discriminate. simpl put_result. destruct (bget name b) eqn:Eb.
      + erewrite match_args_bound by eassumption. reflexivity.
      + rewrite match_args_unbound by assumption. unfold bind. cbn [subscript nth_error ret].
        rewrite Eb. reflexivity.
    - rewrite match_args_const by assumption. unfold bind. cbn [subscript nth_error ret].
      rewrite (not_none v Hv). cbn [negb andb orb match_args ret fst snd].
      assert (put_result b R v = if py_eq R v then [b] else []) as -> by (destruct R; auto; discriminate).
      destruct (py_eq R v); reflexivity.
  Qed.

  (** what is collected from one solution *)
  Inductive collected : value -> binding -> list value -> Prop :=
  | col_here x r v : bget x r = Some v -> collected (VStr x) r [v]
  | col_not x r : bget x r = None -> collected (VStr x) r []
  | col_list xs r vs : Forall2 (fun x v => match bget x r with Some u => v = u | None => v = VNone end) xs vs ->
      collected (VList (map VStr xs)) r [VList vs].

  Lemma find_loop var rs : forall acc vss kept (w : W),
    Forall2 (collected var) rs vss ->
    first_values (rev acc) (concat vss) kept ->
    foldM (find_step var) acc rs w = (Ok (acc ++ kept), w).
  Proof.
    induction rs as [|r rs IH]; intros acc vss kept w Hc Hk; inversion Hc as [|? vs ? vss' Hr Hrs]; subst; simpl in Hk.
    - inversion Hk; subst. now rewrite app_nil_r.
    - assert (Hstep : exists o, vs = match o with Some v => [v] | None => [] end /\
        find_step var acc r w = (Ok (match o with Some v => if py_in v acc then acc else acc ++ [v] | None => acc end), w)).
      { inversion Hr; subst.
        - exists (Some v). split; auto. simpl. unfold bind, get_key. simpl. rewrite H. reflexivity.
        - exists None. split; auto. simpl. unfold bind, get_key. simpl. rewrite H. reflexivity.
        - exists (Some (VList vs0)). split; auto. simpl. unfold bind.
          assert (E : forall xs vs ac, Forall2 (fun x v => match bget x r with Some u => v = u | None => v = VNone end) xs vs ->
            foldM (combi_step r) ac (map VStr xs) w = (Ok (ac ++ vs), w)).
          { clear. induction xs as [|x xs IH]; intros vs ac Hf; inversion Hf; subst; simpl; [now rewrite app_nil_r|].
            unfold combi_step at 1, get_key, bind. simpl. erewrite IH by eassumption.
            rewrite <- app_assoc. simpl. repeat f_equal. destruct (bget x r); subst; reflexivity. }
          rewrite (E xs vs0 [] H). reflexivity. }
      destruct Hstep as (o & -> & Hstep). simpl. unfold bind. rewrite Hstep.
      destruct o as [v|]; simpl in Hk.
      + inversion Hk as [|? ? y ? ? Hy He Hk'|? ? ? kept' Hn Hk']; subst.
        * assert (py_in v acc = true) as ->.
          { apply py_in_spec. exists y. rewrite <- in_rev in Hy. auto. }
          eapply IH; eauto.
        * assert (py_in v acc = false) as ->.
          { destruct (py_in v acc) eqn:E; auto. apply py_in_spec in E as (y & Hy & Ey).
            rewrite Hn in Ey; [discriminate|]. now rewrite <- in_rev. }
          erewrite IH with (kept := kept'); [now rewrite <- app_assoc|eassumption|].
          rewrite rev_app_distr. exact Hk'.
      + eapply IH; eauto.
  Qed.

  Lemma find_values_ok n var body R p b (w : W) rs w1 vss kept :
    is_var var = false ->
    solve mods n (VList body) b w = (Ok (SList rs), w1) ->
    Forall2 (collected var) rs vss -> first_values [] (concat vss) kept ->
    find_values (solver_at mods n) (db_values b [var; VList body; R]) (mkCtx p [] [var; VList body; R] b) w
    = (Ok kept, w1).
  Proof.
    intros Hv Hb Hc Hk. unfold find_values, item. unfold bind.
    cbn [db_values map nth_error ret].
    assert (db_value b var = var) as -> by (destruct var; auto; discriminate).
    cbn [db_value c_binding]. unfold solve in Hb. rewrite Hb. cbn [sres_items ret].
    exact (find_loop var rs [] vss kept w1 Hc Hk).
  Qed.

  Lemma collected_not_var var r vs : collected var r vs -> is_var var = false.
  Proof. now inversion 1. Qed.

  Lemma solve_find_all n var body R b (w : W) rs w1 vss kept :
    only_core mods w "find_all" -> is_var var = false ->
    solve mods n (VList body) b w = (Ok (SList rs), w1) ->
    Forall2 (collected var) rs vss -> first_values [] (concat vss) kept ->
    solve mods (S n) (VList [VTuple [VStr "find_all"; var; VList body; R]]) b w =
    (Ok (SList (put_result b R (VList kept))), w1).
  Proof.
    intros H Hvar Hb Hc Hk. core (@q_find_all W).
    unfold q_find_all. unfold bind at 2.
    erewrite bind_ok_intro by (erewrite find_values_ok by eassumption; reflexivity).
    apply finish_put_last; auto; discriminate.
  Qed.

  Lemma solve_find_one n var body R b (w : W) rs w1 vss kept :
    only_core mods w "find_one" -> is_var var = false ->
    solve mods n (VList body) b w = (Ok (SList rs), w1) ->
    Forall2 (collected var) rs vss -> first_values [] (concat vss) kept ->
    (kept = [] -> solve mods (S n) (VList [VTuple [VStr "find_one"; var; VList body; R]]) b w = (Ok (SList []), w1)) /\
    (forall v rest, kept = v :: rest -> v <> VNone ->
      solve mods (S n) (VList [VTuple [VStr "find_one"; var; VList body; R]]) b w =
      (Ok (SList (put_result b R v)), w1)).
  Proof.
    intros H Hvar Hb Hc Hk. split; [intros ->|intros v rest -> Hn]; core (@q_find_one W);
      unfold q_find_one; unfold bind at 2;
      (erewrite bind_ok_intro by (erewrite find_values_ok by eassumption; reflexivity)).
    - reflexivity.
    - apply finish_put_last; auto; discriminate.
  Qed.

  (** ** let and multiply (C23) *)

  Lemma solve_let n R a v b (w : W) : only_core mods w "let" -> received b a v -> v <> VNone ->
    solve mods (S n) (VList [VTuple [VStr "let"; R; a]]) b w = (Ok (SList (put_result b R v)), w).
  Proof.
    intros H Hr Hn. core (@q_let W). unfold q_let, item, rows. unfold bind.
    assert (E : db_values b [R; a] = [db_value b R; v]).
    { simpl. f_equal. f_equal. pose proof (received_unique b [a] [v]) as E. symmetry.
      assert ([v] = db_values b [a]) as E2 by (apply E; repeat constructor; auto). now inversion E2. }
    rewrite E. cbn [nth_error ret map]. rewrite finish_row by reflexivity. unfold bind at 1.
    assert (M : forall r c, match_args (VList [v; v]) b 1 [a] r c w = (Ok (r, c), w)).
    { intros r c. pose proof (match_received b r [a] [v] [v] c w) as E1. apply E1; repeat constructor; auto. }
    destruct (is_var R) eqn:Ev.
    - destruct R; try discriminate. simpl put_result. destruct (bget name b) eqn:Eb.
      + erewrite match_args_bound by eassumption. rewrite M. reflexivity.
      + rewrite match_args_unbound by assumption. unfold bind. cbn [subscript nth_error ret].
        rewrite Eb. rewrite M. reflexivity.
    - rewrite match_args_const by assumption. unfold bind. cbn [subscript nth_error ret].
      rewrite (not_none v Hn), M. cbn [negb andb orb match_args ret fst snd].
      assert (put_result b R v = if py_eq R v then [b] else []) as -> by (destruct R; auto; discriminate).
      destruct (py_eq R v); reflexivity.
  Qed.

  Lemma py_mul_some_not_none a c v : py_mul a c = Some v -> v <> VNone /\ a <> VNone /\ c <> VNone.
  Proof.
    unfold py_mul. destruct a, c; simpl; intros H; inversion H; subst; repeat split; discriminate.
  Qed.

  Lemma solve_multiply_fails n a1 a2 R v1 v2 b (w : W) : only_core mods w "multiply" ->
    received b a1 v1 -> received b a2 v2 -> py_mul v1 v2 = None ->
    solve mods (S n) (VList [VTuple [VStr "multiply"; a1; a2; R]]) b w = (Exn TypeErr, w).
  Proof.
    intros H H1 H2 Hm.
    core (@q_multiply W). unfold q_multiply, item, rows. unfold bind.
    assert (E : db_values b [a1; a2; R] = [v1; v2; db_value b R]).
    { assert ([v1; v2] = db_values b [a1; a2]) as E2 by (apply received_unique; repeat constructor; auto).
      simpl in *. now inversion E2. }
    rewrite E. cbn [nth_error ret]. rewrite Hm. reflexivity.
  Qed.
  Lemma solve_multiply n a1 a2 R v1 v2 v b (w : W) : only_core mods w "multiply" ->
    received b a1 v1 -> received b a2 v2 -> py_mul v1 v2 = Some v ->
    solve mods (S n) (VList [VTuple [VStr "multiply"; a1; a2; R]]) b w = (Ok (SList (put_result b R v)), w).
  Proof.
    intros H H1 H2 Hm. apply py_mul_some_not_none in Hm as Hs. destruct Hs as (Hv & N1 & N2).
    core (@q_multiply W). unfold q_multiply, item, rows. unfold bind.
    assert (E : db_values b [a1; a2; R] = [v1; v2; db_value b R]).
    { assert ([v1; v2] = db_values b [a1; a2]) as E2 by (apply received_unique; repeat constructor; auto).
      simpl in *. now inversion E2. }
    rewrite E. cbn [nth_error ret]. rewrite Hm. cbn [or_throw ret].
    rewrite (not_none v1 N1), (not_none v2 N2). cbn [map ret].
    rewrite finish_row by reflexivity. unfold bind at 1.
    assert (S1 : forall a u i row rest r c, received b a u -> u <> VNone -> nth_error row i = Some VNone ->
      match_args (VList row) b i (a :: rest) r c w = match_args (VList row) b (S i) rest r c w).
    { intros a u i row rest r c Hr Hn Hi. inversion Hr; subst.
      - erewrite match_args_bound by eassumption. reflexivity.
      - congruence.
      - rewrite match_args_const by (destruct u; auto; exfalso; eapply H0; eauto).
        erewrite bind_ok_intro by (apply subscript_nth; exact Hi). simpl. now rewrite orb_false_r. }
    erewrite S1 by (try eassumption; reflexivity). erewrite S1 by (try eassumption; reflexivity).
    destruct (is_var R) eqn:Ev.
    - destruct R; try discriminate. simpl put_result. destruct (bget name b) eqn:Eb.
      + erewrite match_args_bound by eassumption. reflexivity.
      + rewrite match_args_unbound by assumption. unfold bind. cbn [subscript nth_error ret].
        rewrite Eb. reflexivity.
    - rewrite match_args_const by assumption. unfold bind. cbn [subscript nth_error ret].
      rewrite (not_none v Hv). cbn [negb andb orb match_args ret fst snd].
      assert (put_result b R v = if py_eq R v then [b] else []) as -> by (destruct R; auto; discriminate).
      destruct (py_eq R v); reflexivity.
  Qed.
End Core2.
