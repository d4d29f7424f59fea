(** * More proofs about the solver for arbitrary modules: domain of the
      solutions, chaining, duplicates, disjunctions, errors *)

From Coq Require Import ZArith String List Bool Lia Arith.
From Verif Require Import Py PyFacts ReprProofs Effects EffectsFacts Solver SolverSpec SolverProofs.
Import ListNotations.
Local Open Scope string_scope.
Local Open Scope list_scope.

Section Generic.
  Context {W : Type}.
  Variable mods : list (modul W).

  (** ** C02: domain *)

  Lemma direct_var_incl x l l' : incl l l' -> direct_var x (VList l) -> direct_var x (VList l').
  Proof.
    intros Hi H. inversion H; subst.
    - eapply dv_arg; eauto.
    - eapply dv_disj; eauto.
  Qed.

  Definition dom_ok (atoms : value) (b r : binding) : Prop :=
    forall k, bget k r <> None -> bget k b <> None \/ direct_var k atoms.

  Lemma single_domain sv :
    (forall atoms b (w : W) l w', sv_solve sv atoms b w = (Ok (SList l), w') ->
       forall r, In r l -> dom_ok atoms b r) ->
    forall atom b w l w', solve_single mods sv atom b w = (Ok (SList l), w') ->
      forall r, In r l -> dom_ok (VList [atom]) b r.
  Proof.
    intros Hsv atom b w l w' H r Hr k Hk.
    apply solve_single_ok in H as (p & args & Ha & [(-> & ds & rest & alts & -> & Hds & H)|(Hn & H)]).
    - destruct (disjuncts_good sv dom_ok Hsv _ _ _ _ _ H r Hr) as (d & Hd & Hg).
      destruct (Hg k Hk) as [|Hv]; auto. right. eapply dv_disj; eauto. now left.
    - apply solve_relation_ok in H as (rows & _ & H & _).
      eapply create_results_inv with (P := fun r => forall k, bget k r <> None ->
        bget k b <> None \/ In (VVar k) args) in H.
      + rewrite Forall_forall in H. destruct (H r Hr k Hk); auto.
        right. eapply dv_arg; [now left|exact Ha| |assumption]. intros [= ->]. now apply Hn.
      + intros v r0 w1 w2 _ Hm k0 Hk0. eapply match_args_domain in Hm; eauto.
  Qed.

  Lemma atoms_domain sv :
    (forall atoms b (w : W) l w', sv_solve sv atoms b w = (Ok (SList l), w') ->
       forall r, In r l -> dom_ok atoms b r) ->
    forall atoms b w l w', solve_atoms mods sv atoms b w = (Ok (SList l), w') ->
      forall r, In r l -> dom_ok (VList atoms) b r.
  Proof.
    intros Hsv. induction atoms as [|a rest IH]; intros b w l w' H r Hr.
    - simpl in H. apply ret_ok in H as [E _]. injection E as <-.
      destruct Hr as [<-|[]]. left; auto.
    - destruct rest as [|a2 rest].
      + eapply single_domain; eauto.
      + apply solve_atoms_cons_ok in H as (r1 & bs & w1 & result & H1 & H2 & H3 & [= ->]).
        revert r Hr.
        eapply (foldM_inv (fun acc => forall r, In r acc -> dom_ok _ b r)); [|exact H3|intros ? []].
        intros acc b' w4 acc' w5 Hb' Hacc Hf r Hr.
        apply conj_step_ok in Hf as (rr & rs & F1 & F2 & ->).
        apply fold_add_binding_In in Hr as [Hr|Hr]; auto.
        apply sres_items_ok in H2 as [_ [->|[-> _]]]; [|destruct Hb'].
        apply sres_items_ok in F2 as [_ [->|[-> _]]]; [|destruct Hr].
        intros k Hk. destruct (IH _ _ _ _ F1 r Hr k Hk) as [Hb|Hd].
        * destruct (single_domain sv Hsv _ _ _ _ _ H1 b' Hb' k Hb) as [|Hd]; auto.
          right. eapply direct_var_incl; [|exact Hd]. intros x [<-|[]]. now left.
        * right. eapply direct_var_incl; [|exact Hd]. intros x Hx. now right.
  Qed.

  Theorem solve_domain n : forall atoms b w l w',
    solve mods n atoms b w = (Ok (SList l), w') -> forall r, In r l -> dom_ok atoms b r.
  Proof.
    induction n as [|n IH]; intros atoms b w l w' H r Hr.
    - discriminate.
    - unfold solve in *. simpl in H. destruct atoms; try discriminate. simpl in H.
      eapply atoms_domain; eauto.
  Qed.

  (** ** add_binding *)

  Lemma mem_In r l : In r l -> mem r l.
  Proof. intros H. exists r. auto using dict_eq_refl. Qed.

  Lemma mem_eq r r' l : dict_eq r r' = true -> mem r l -> mem r' l.
  Proof.
    intros E (x & Hx & Hr). exists x. split; auto.
    eapply dict_eq_trans; [|exact Hr]. now rewrite dict_eq_sym.
  Qed.

  Lemma add_binding_mem acc x r : mem r (add_binding acc x) <-> mem r acc \/ dict_eq r x = true.
  Proof.
    unfold add_binding. destruct (dict_in x acc) eqn:E.
    - split; auto. intros [H|H]; auto. apply dict_in_spec in E as (y & Hy & Ey).
      exists y. split; auto. eapply dict_eq_trans; eauto.
    - unfold mem. split.
      + intros (y & Hy & Ey). apply in_app_or in Hy as [Hy|[<-|[]]]; eauto.
      + intros [(y & Hy & Ey)|H].
        * exists y. split; auto. apply in_or_app; auto.
        * exists x. split; auto. apply in_or_app; simpl; auto.
  Qed.

  Lemma fold_add_binding_mem rs : forall acc r,
    mem r (fold_left add_binding rs acc) <-> mem r acc \/ mem r rs.
  Proof.
    induction rs as [|x rs IH]; simpl; intros acc r.
    - split; auto. intros [H|(y & [] & _)]; auto.
    - rewrite IH, add_binding_mem. split.
      + intros [[H|H]|(y & Hy & Ey)]; auto; right; [exists x|exists y]; simpl; auto.
      + intros [H|(y & [<-|Hy] & Ey)]; auto. right; exists y; auto.
  Qed.

  (** pairwise different *)
  Definition distinct (l : list binding) : Prop :=
    ForallOrdPairs (fun a b => dict_eq a b = false) l.

  Lemma distinct_snoc l x : distinct l -> dict_in x l = false -> distinct (l ++ [x]).
  Proof.
    unfold distinct. induction 1 as [|a l Ha Hl IH]; simpl; intros Hx.
    - repeat constructor.
    - apply orb_false_iff in Hx as [Hx Hx']. constructor; [|now apply IH].
      apply Forall_app; split; auto. constructor; auto. now rewrite dict_eq_sym.
  Qed.

  Lemma add_binding_distinct acc x : distinct acc -> distinct (add_binding acc x).
  Proof.
    unfold add_binding. intros H. destruct (dict_in x acc) eqn:E; auto. now apply distinct_snoc.
  Qed.

  Lemma fold_add_binding_distinct rs : forall acc, distinct acc ->
    distinct (fold_left add_binding rs acc).
  Proof. induction rs; simpl; intros; auto using add_binding_distinct. Qed.

  Lemma distinct_no_duplicates l : distinct l -> no_duplicates l.
  Proof.
    unfold no_duplicates. induction 1 as [|x l Hx Hl IH]; intros i j a b Hij Ha Hb.
    - destruct i; discriminate.
    - rewrite Forall_forall in Hx.
      destruct i as [|i], j as [|j]; simpl in Ha, Hb.
      + congruence.
      + injection Ha as <-. apply Hx. eapply nth_error_In; eauto.
      + injection Hb as <-. rewrite dict_eq_sym. apply Hx. eapply nth_error_In; eauto.
      + eapply (IH i j); eauto.
  Qed.

  (** ** C04 *)
  Theorem solve_no_duplicates n a1 a2 rest b w l w' :
    solve mods n (VList (a1 :: a2 :: rest)) b w = (Ok (SList l), w') -> no_duplicates l.
  Proof.
    destruct n as [|n]; [discriminate|]. unfold solve. simpl sv_solve. unfold solve_F.
    intros H. apply solve_atoms_cons_ok in H as (r1 & bs & w1 & result & H1 & H2 & H3 & [= ->]).
    apply distinct_no_duplicates.
    eapply (foldM_inv distinct); [|exact H3|constructor].
    intros acc b' w4 acc' w5 _ Hacc Hf.
    apply conj_step_ok in Hf as (rr & rs & _ & _ & ->).
    now apply fold_add_binding_distinct.
  Qed.

  (** ** C03 *)
  Section Chain.
    Variable n : nat.
    Variable w : W.
    (** [b'] is a solution of the single atom [a] from [b] *)
    Definition step_at (a : value) (b b' : binding) : Prop :=
      exists l, solve mods n (VList [a]) b w = (Ok (SList l), w) /\ In b' l.

    Lemma chain_fold sv rest bs :
      (forall b, snd (solve_atoms mods sv rest b w) = w) ->
      forall acc result w',
      foldM (conj_step mods sv rest) acc bs w = (Ok result, w') ->
      w' = w /\
      (forall b', In b' bs -> exists rr rs, solve_atoms mods sv rest b' w = (Ok rr, w) /\
         sres_items rr w = (Ok rs, w) /\ (forall r, mem r rs -> mem r result)) /\
      (forall r, In r result -> In r acc \/ exists b' rr rs, In b' bs /\
         solve_atoms mods sv rest b' w = (Ok rr, w) /\ sres_items rr w = (Ok rs, w) /\ In r rs) /\
      (forall r, mem r acc -> mem r result).
    Proof.
      intros Hp. induction bs as [|b' bs IH]; simpl; intros acc result w' H.
      - inv_ret H. split; auto. split; [intros ? []|]. split; auto.
      - inv_bind H. apply conj_step_ok in E as (rr & rs & E1 & E2 & ->).
        pose proof (Hp b') as Hw. rewrite E1 in Hw. simpl in Hw. subst w0.
        apply IH in H as (-> & HA & HB & HC). split; auto. split; [|split].
        + intros b'' [<-|Hb]; [|now apply HA].
          exists rr, rs. split; auto. split; auto. intros r Hr. apply HC.
          apply fold_add_binding_mem. auto.
        + intros r Hr. apply HB in Hr as [Hr|(b1 & rr1 & rs1 & ? & ? & ? & ?)].
          * apply fold_add_binding_In in Hr as [|Hr]; auto. right. eauto 10.
          * right. eauto 10.
        + intros r Hr. apply HC. apply fold_add_binding_mem. auto.
    Qed.

    Lemma atoms_preserve m atoms : n = S m ->
      (forall a, In a atoms -> forall b, snd (solve mods n (VList [a]) b w) = w) ->
      forall b, snd (solve_atoms mods (solver_at mods m) atoms b w) = w.
    Proof.
      intros Hn. induction atoms as [|a rest IH]; intros Hp b; [reflexivity|].
      assert (Ha : forall b, snd (solve_single mods (solver_at mods m) a b w) = w).
      { intros b0. specialize (Hp a (or_introl eq_refl) b0). rewrite Hn in Hp. exact Hp. }
      destruct rest as [|a2 rest]; [apply Ha|].
      rewrite solve_atoms_cons. unfold bind at 1. specialize (Ha b).
      destruct (solve_single mods (solver_at mods m) a b w) as [[r|e|] w1]; simpl in Ha; subst; auto.
      unfold bind at 1. destruct r as [l|s [|k]]; simpl; auto.
      assert (IH' : forall b, snd (solve_atoms mods (solver_at mods m) (a2 :: rest) b w) = w)
        by (apply IH; intros; apply Hp; right; auto).
      clear -IH'. unfold bind.
      assert (G : forall acc, snd (foldM (conj_step mods (solver_at mods m) (a2 :: rest)) acc l w) = w).
      { induction l as [|x l IHl]; intros acc; [reflexivity|]. cbn [foldM]. unfold bind at 1.
        specialize (IH' x). unfold conj_step at 1. unfold bind at 1.
        destruct (solve_atoms mods (solver_at mods m) (a2 :: rest) x w) as [[rr|e|] w1];
          simpl in IH'; subst; auto.
        unfold bind. destruct rr as [l1|s [|k]]; simpl; auto. }
      specialize (G []). destruct (foldM _ _ _ _) as [[?|?|] ?]; simpl in *; auto.
    Qed.

    Theorem solve_chain atoms b l w' :
      (forall a, In a atoms -> forall b, snd (solve mods n (VList [a]) b w) = w) ->
      solve mods n (VList atoms) b w = (Ok (SList l), w') ->
      w' = w /\ (forall r, In r l -> chain step_at atoms b r) /\
      (forall r, chain step_at atoms b r -> mem r l).
    Proof.
      destruct n as [|m] eqn:Hn; [discriminate|].
      unfold solve at 2. simpl sv_solve. unfold solve_F.
      revert b l w'. induction atoms as [|a rest IH]; intros b l w' Hp H.
      - simpl in H. apply ret_ok in H as [E <-]. injection E as <-. split; auto. split.
        + intros r [<-|[]]. constructor.
        + intros r Hc. inversion Hc; subst. apply mem_In. now left.
      - destruct rest as [|a2 rest].
        + pose proof (Hp a (or_introl eq_refl) b) as Hw.
          unfold solve in Hw. simpl in Hw. simpl in H. rewrite H in Hw. simpl in Hw. subst w'.
          split; auto. split.
          * intros r Hr. econstructor; [|constructor]. exists l. rewrite Hn. auto.
          * intros r Hc. inversion Hc as [|? ? ? b1 ? Hs Hc']; subst. inversion Hc'; subst.
            destruct Hs as (l' & Hl' & Hin). rewrite Hn in Hl'. unfold solve in Hl'. simpl in Hl'.
            rewrite H in Hl'. injection Hl' as ->. now apply mem_In.
        + apply solve_atoms_cons_ok in H as (r1 & bs & w1 & result & H1 & H2 & H3 & [= ->]).
          pose proof (Hp a (or_introl eq_refl) b) as Hw.
          unfold solve in Hw. simpl in Hw. rewrite H1 in Hw. simpl in Hw. subst w1.
          assert (Hp' : forall a0, In a0 (a2 :: rest) ->
                    forall b, snd (solve mods (S m) (VList [a0]) b w) = w)
            by (intros; apply Hp; right; auto).
          apply chain_fold in H3 as (-> & HA & HB & _).
          2:{ intros b0. apply atoms_preserve; auto. rewrite Hn. auto. }
          split; auto. split.
          * intros r Hr. apply HB in Hr as [[]|(b' & rr & rs & Hb' & F1 & F2 & Hr)].
            apply sres_items_ok in F2 as [_ [->|[-> _]]]; [|destruct Hr].
            apply sres_items_ok in H2 as [_ [->|[-> _]]]; [|destruct Hb'].
            econstructor; [exists bs; split; [rewrite Hn; exact H1|exact Hb']|].
            eapply IH; eauto.
          * intros r Hc. inversion Hc as [|? ? ? b1 ? Hs Hc']; subst.
            destruct Hs as (l' & Hl' & Hin). rewrite Hn in Hl'. unfold solve in Hl'. simpl in Hl'.
            rewrite H1 in Hl'. injection Hl' as ->.
            simpl in H2. inv_ret H2.
            destruct (HA b1 Hin) as (rr & rs & F1 & F2 & F3). apply F3.
            assert (exists ll, rr = SList ll) as [ll ->].
            { apply sres_items_ok in F2 as [_ [->|(-> & s & ->)]]; eauto.
              (* an iterator result: then the last atom gave an iterator, so no chain exists *)
              exfalso. clear -F1 Hc' Hn. revert b1 F1 Hc'.
              generalize dependent a2. induction rest as [|a3 rest IHr]; intros a2 b1 F1 Hc'.
              - inversion Hc' as [|? ? ? b2 ? Hs _]; subst. destruct Hs as (l' & Hl' & _).
                rewrite Hn in Hl'. unfold solve in Hl'. simpl in Hl', F1. rewrite F1 in Hl'. discriminate.
              - apply solve_atoms_cons_ok in F1 as (? & ? & ? & ? & _ & _ & _ & ?). discriminate. }
            simpl in F2. inv_ret F2.
            eapply IH in F1 as (_ & _ & G); eauto.
    Qed.
  End Chain.

  (** ** C09 *)
  Theorem solve_disjunction_first n alts rest b w l w' :
    solve mods (S n) (VList [VTuple (VStr DISJUNCTION :: VList alts :: rest)]) b w = (Ok (SList l), w') ->
    first_success (fun d w rs w' => exists r, solve mods n d b w = (Ok r, w') /\
                     (r = SList rs \/ (rs = [] /\ exists s, r = SIter s 0)))
      alts w l w'.
  Proof.
    unfold solve at 1. simpl. unfold solve_single; simpl. unfold bind at 1; simpl.
    revert w. induction alts as [|d alts IH]; intros w H; simpl in H.
    - apply ret_ok in H as [E ->]. injection E as <-. constructor.
    - inv_bind H. destruct (sres_len a) eqn:El.
      + eapply fs_next; [|apply IH; exact H]. exists a. split; [exact E|].
        destruct a as [[|]|s [|]]; simpl in El; try discriminate; eauto.
      + inv_ret H. apply fs_here; eauto.
        intros ->. discriminate.
  Qed.

  (** ** C12 *)
  Theorem solve_not_a_list n v b w :
    (forall l, v <> VList l) -> solve mods (S n) v b w = (Exn (not_a_list v), w).
  Proof.
    intros H. unfold solve; simpl. destruct v; simpl; try reflexivity.
    exfalso. now apply (H l).
  Qed.

  Theorem solve_unknown_predicate n p args rest b w :
    p <> DISJUNCTION -> (forall m, In m mods -> m w p = None) ->
    solve mods (S n) (VList (VTuple (VStr p :: args) :: rest)) b w = (Exn (no_relation p), w).
  Proof.
    intros Hp Hm.
    assert (Hs : solve_single mods (solver_at mods n) (VTuple (VStr p :: args)) b w = (Exn (no_relation p), w)).
    { unfold solve_single. unfold bind at 1. simpl.
      destruct (String.eqb_spec p DISJUNCTION); [contradiction|].
      unfold solve_relation, bind at 1, find_relation_values, bind, get.
      assert (Hf : find_relations mods w p = []).
      { unfold find_relations. clear -Hm. induction mods as [|m ms IH]; simpl; auto.
        rewrite (Hm m (or_introl eq_refl)). apply IH. intros; apply Hm; right; auto. }
      rewrite Hf. reflexivity. }
    unfold solve; simpl. destruct rest as [|a2 rest]; [exact Hs|].
    unfold bind. rewrite Hs. reflexivity.
  Qed.
End Generic.
