(** * Single-atom matching: the solutions are exactly the rows that fit *)

From Coq Require Import ZArith String List Bool Lia Arith.
From Verif Require Import Py PyFacts ReprProofs Effects EffectsFacts Solver SolverSpec
  SolverProofs SolverProofs2.
Import ListNotations.
Local Open Scope string_scope.
Local Open Scope list_scope.

Lemma is_data_eq v : is_data v = data v.
Proof. reflexivity. Qed.

Section Match.
  Context {W : Type}.

  Ltac arg_cases a b :=
    let Ev := fresh "Ev" in
    destruct (is_var a) eqn:Ev;
    [ destruct a as [| | | | |x| | | |]; try discriminate; clear Ev;
      let Eb := fresh "Eb" in destruct (bget x b) eqn:Eb;
      [ erewrite match_args_bound in * by eassumption
      | rewrite match_args_unbound in * by assumption ]
    | rewrite match_args_const in * by assumption ].

  Lemma subscript_nth row i x (w : W) : nth_error row i = Some x -> subscript (VList row) i w = (Ok x, w).
  Proof. simpl. now intros ->. Qed.

  Lemma match_args_total row b args : forall i r c (w : W),
    length row = i + length args ->
    exists r' c', match_args (VList row) b i args r c w = (Ok (r', c'), w).
  Proof.
    induction args as [|a args IH]; intros i r c w Hl; simpl in Hl.
    - simpl. eexists _, _. reflexivity.
    - assert (exists x, nth_error row i = Some x) as [x0 Hx].
      { destruct (nth_error row i) eqn:E; eauto. apply nth_error_None in E. lia. }
      arg_cases a b.
      + apply IH. lia.
      + rewrite (bind_ok_intro _ _ _ _ _ (subscript_nth row i x0 w Hx)). apply IH. lia.
      + rewrite (bind_ok_intro _ _ _ _ _ (subscript_nth row i x0 w Hx)). apply IH. lia.
  Qed.

  Lemma match_args_old v b args : forall i r c (w : W) r' c' w',
    match_args v b i args r c w = (Ok (r', c'), w') ->
    forall k, (bget k b <> None \/ ~ In (VVar k) args) -> bget k r' = bget k r.
  Proof.
    induction args as [|a args IH]; intros i r c w r' c' w' H k Hk.
    - simpl in H. inv_ret H. inversion H; subst. auto.
    - arg_cases a b.
      + eapply IH; eauto. destruct Hk as [|Hk]; auto. right. intros F. apply Hk. now right.
      + inv_bind H. erewrite IH; [|exact H|].
        * apply bget_bset_other. intros ->. destruct Hk as [Hk|Hk]; [congruence|].
          apply Hk. now left.
        * destruct Hk as [|Hk]; auto. right. intros F. apply Hk. now right.
      + inv_bind H. eapply IH; eauto. destruct Hk as [|Hk]; auto. right. intros F. apply Hk. now right.
  Qed.

  Lemma match_args_sound row b args : forall i r c (w : W) r' w',
    match_args (VList row) b i args r c w = (Ok (r', false), w') ->
    c = false /\
    (forall j arg, nth_error args j = Some arg -> is_var arg = false ->
       exists v, nth_error row (i + j) = Some v /\ (v = VNone \/ py_eq arg v = true)) /\
    (forall j x, nth_error args j = Some (VVar x) -> bget x b = None ->
       exists v, nth_error row (i + j) = Some v /\ opt_eq (bget x r') (Some v) = true) /\
    (forall x v0, bget x b = None -> bget x r = Some v0 -> opt_eq (bget x r') (Some v0) = true).
  Proof.
    induction args as [|a args IH]; intros i r c w r' w' H.
    - simpl in H. inv_ret H. inversion H; subst. split; auto.
      split; [intros [|j]; discriminate|]. split; [intros [|j]; discriminate|].
      intros x v0 _ ->. apply opt_eq_refl.
    - arg_cases a b.
      + apply IH in H as (-> & HA & HB & HC). split; auto. split; [|split]; auto.
        * intros [|j] arg Ha Hv; [inversion Ha; subst; discriminate|].
          rewrite Nat.add_succ_r. now apply HA.
        * intros [|j] y Ha Hv; [inversion Ha; subst; congruence|].
          rewrite Nat.add_succ_r. now apply HB.
      + inv_bind H. pose proof (subscript_state _ _ _ _ _ E) as ->.
        apply subscript_list in E.
        apply IH in H as (Hc & HA & HB & HC). apply orb_false_iff in Hc as [-> Hc].
        assert (Hx : opt_eq (bget x r') (Some a) = true)
          by (apply HC; auto; apply bget_bset_same).
        split; auto. split; [|split].
        * intros [|j] arg Ha Hv; [inversion Ha; subst; discriminate|].
          rewrite Nat.add_succ_r. now apply HA.
        * intros [|j] y Ha Hv.
          -- injection Ha as <-. exists a. rewrite Nat.add_0_r. auto.
          -- rewrite Nat.add_succ_r. now apply HB.
        * intros y v0 Hy Hr. destruct (String.eqb_spec x y) as [<-|Hn].
          -- rewrite Hr in Hc. apply negb_false_iff in Hc.
             eapply opt_eq_trans; [exact Hx|]. simpl. now rewrite py_eq_sym.
          -- apply HC; auto. now rewrite bget_bset_other.
      + inv_bind H. pose proof (subscript_state _ _ _ _ _ E) as ->.
        apply subscript_list in E.
        apply IH in H as (Hc & HA & HB & HC). apply orb_false_iff in Hc as [-> Hc].
        split; auto. split; [|split]; auto.
        * intros [|j] arg Ha Hv.
          -- injection Ha as <-. exists a0. rewrite Nat.add_0_r. split; auto.
             apply andb_false_iff in Hc as [Hc|Hc]; apply negb_false_iff in Hc; auto.
             destruct a0; try discriminate; auto.
          -- rewrite Nat.add_succ_r. now apply HA.
        * intros [|j] y Ha Hv; [inversion Ha; subst; discriminate|].
          rewrite Nat.add_succ_r. now apply HB.
  Qed.

  Lemma match_args_complete row b s args : forall i r c (w : W) r' c' w',
    match_args (VList row) b i args r c w = (Ok (r', c'), w') ->
    c = false ->
    (forall j arg, nth_error args j = Some arg -> is_var arg = false ->
       exists v, nth_error row (i + j) = Some v /\ (v = VNone \/ py_eq arg v = true)) ->
    (forall j x, nth_error args j = Some (VVar x) -> bget x b = None ->
       exists v, nth_error row (i + j) = Some v /\ opt_eq (bget x s) (Some v) = true) ->
    (forall x v0, bget x b = None -> bget x r = Some v0 -> opt_eq (bget x s) (Some v0) = true) ->
    c' = false.
  Proof.
    induction args as [|a args IH]; intros i r c w r' c' w' H Hc HA HB HC.
    - simpl in H. inv_ret H. inversion H; subst. auto.
    - assert (HA' : forall j arg, nth_error args j = Some arg -> is_var arg = false ->
         exists v, nth_error row (S i + j) = Some v /\ (v = VNone \/ py_eq arg v = true)).
      { intros j arg Hj. specialize (HA (S j) arg Hj). now rewrite Nat.add_succ_r in HA. }
      assert (HB' : forall j x, nth_error args j = Some (VVar x) -> bget x b = None ->
       exists v, nth_error row (S i + j) = Some v /\ opt_eq (bget x s) (Some v) = true).
      { intros j x Hj. specialize (HB (S j) x Hj). now rewrite Nat.add_succ_r in HB. }
      arg_cases a b.
      + eapply IH; eauto.
      + inv_bind H. pose proof (subscript_state _ _ _ _ _ E) as ->.
        apply subscript_list in E.
        destruct (HB 0 x eq_refl Eb) as (v & Hv & Hs). rewrite Nat.add_0_r, E in Hv.
        injection Hv as ->.
        eapply IH; [exact H| | | |]; eauto.
        * subst c. simpl. destruct (bget x r) eqn:Er; auto.
          apply negb_false_iff. specialize (HC x v0 Eb Er).
          change (opt_eq (Some v0) (Some v) = true).
          eapply opt_eq_trans; [|exact Hs]. now rewrite opt_eq_sym.
        * intros y v0 Hy. rewrite bget_bset. destruct (String.eqb_spec x y) as [<-|]; eauto.
          intros [= <-]. exact Hs.
      + inv_bind H. pose proof (subscript_state _ _ _ _ _ E) as ->.
        apply subscript_list in E.
        destruct (HA 0 a eq_refl Ev) as (v & Hv & Hs). rewrite Nat.add_0_r, E in Hv.
        injection Hv as ->.
        eapply IH; [exact H| | | |]; eauto.
        subst c. simpl. destruct Hs as [-> | ->]; [reflexivity|apply andb_false_r].
  Qed.

  (** ** row_fits *)

  Lemma row_fits_unique b args row r1 r2 :
    row_fits b args row r1 -> row_fits b args row r2 -> dict_eq r1 r2 = true.
  Proof.
    intros [A1 A2 _ A4] [B1 B2 _ B4]. apply dict_eq_spec. intros k.
    destruct (bget k b) eqn:Eb.
    - eapply opt_eq_trans; [eapply A1; eauto|]. rewrite opt_eq_sym. eauto.
    - destruct (in_dec string_dec k
                  (flat_map (fun a => match a with VVar x => [x] | _ => [] end) args)) as [Hi|Hi].
      + apply in_flat_map in Hi as (a & Ha & Hk). destruct a; simpl in Hk; try tauto.
        destruct Hk as [->|[]]. apply In_nth_error in Ha as [i Hi].
        destruct (A2 i k Hi Eb) as (v & Hv & Hr). destruct (B2 i k Hi Eb) as (v' & Hv' & Hr').
        rewrite Hv in Hv'. injection Hv' as <-.
        eapply opt_eq_trans; [exact Hr|]. now rewrite opt_eq_sym.
      + assert (Hn : ~ In (VVar k) args).
        { intros F. apply Hi. apply in_flat_map. exists (VVar k). simpl; auto. }
        rewrite (A4 k Eb Hn), (B4 k Eb Hn). reflexivity.
  Qed.

  Lemma row_fits_eq b args row r1 r2 :
    row_fits b args row r1 -> dict_eq r2 r1 = true -> row_fits b args row r2.
  Proof.
    intros [A1 A2 A3 A4] E. apply dict_eq_spec in E. constructor; auto.
    - intros k v Hk. eapply opt_eq_trans; [apply E|eauto].
    - intros i x Hi Hx. destruct (A2 i x Hi Hx) as (v & Hv & Hr). exists v. split; auto.
      eapply opt_eq_trans; [apply E|eauto].
    - intros k Hk Hn. specialize (E k). rewrite (A4 k Hk Hn) in E.
      destruct (bget k r2); [discriminate|reflexivity].
  Qed.

  Lemma match_fits row b args (w : W) r w' :
    match_args (VList row) b 0 args b false w = (Ok (r, false), w') -> row_fits b args row r.
  Proof.
    intros H. pose proof (match_args_old _ _ _ _ _ _ _ _ _ _ H) as Ho.
    apply match_args_sound in H as (_ & HA & HB & _). constructor.
    - intros k v Hk. rewrite Ho by (left; congruence). rewrite Hk. apply opt_eq_refl.
    - intros i x Hi Hx. now apply HB.
    - intros i arg Hi Ha. apply HA; auto. now apply is_var_false.
    - intros k Hk Hn. rewrite Ho; auto.
  Qed.

  Lemma fits_match row b args (w : W) s r c w' :
    match_args (VList row) b 0 args b false w = (Ok (r, c), w') -> row_fits b args row s -> c = false.
  Proof.
    intros H [A1 A2 A3 A4]. eapply match_args_complete with (s := s); eauto.
    intros j arg Hj Hv. apply A3; auto. now apply is_var_false.
  Qed.

  (** ** create_results *)

  Lemma create_results_spec b args rows : forall (w : W),
    good_rows (length args) rows ->
    exists l, create_results rows b args w = (Ok l, w) /\
      forall r, mem r l <-> exists row, In (VList row) rows /\ row_fits b args row r.
  Proof.
    unfold create_results. intros w.
    assert (G : forall rows acc, good_rows (length args) rows ->
      exists l,
      foldM (fun (results : list binding) (v : value) =>
         bind (match_args (W:=W) v b 0 args b false)
           (fun rc => let '(result, conflict) := rc in
            if conflict then ret results else ret (results ++ [result]))) acc rows w = (Ok l, w) /\
      forall r, mem r l <-> mem r acc \/ exists row, In (VList row) rows /\ row_fits b args row r).
    { clear rows. induction rows as [|v rows IH]; intros acc Hg.
      - exists acc. split; [reflexivity|]. intros r. split; auto.
        intros [|(row & [] & _)]; auto.
      - destruct (Hg v (or_introl eq_refl)) as (row & -> & Hl & _).
        destruct (match_args_total row b args 0 b false w) as (r' & c' & Hm); [lia|].
        assert (Hg' : good_rows (length args) rows) by (intros x Hx; apply Hg; now right).
        cbn [foldM]. unfold bind at 1. unfold bind at 1. rewrite Hm.
        destruct c'.
        + destruct (IH acc Hg') as (l & El & Hl'). exists l. split; [exact El|].
          intros r. rewrite Hl'. split.
          * intros [|(row' & Hr & Hf)]; auto. right. exists row'. simpl; auto.
          * intros [|(row' & [E|Hr] & Hf)]; eauto.
            injection E as <-. eapply fits_match in Hm; eauto. discriminate.
        + destruct (IH (acc ++ [r']) Hg') as (l & El & Hl'). exists l. split; [exact El|].
          apply match_fits in Hm.
          intros r. rewrite Hl'. split.
          * intros [(x & Hx & Ex)|(row' & Hr & Hf)].
            -- apply in_app_or in Hx as [Hx|[<-|[]]].
               ++ left. exists x; auto.
               ++ right. exists row. split; [now left|]. eapply row_fits_eq; eauto.
            -- right. exists row'. simpl; auto.
          * intros [(x & Hx & Ex)|(row' & [E|Hr] & Hf)].
            -- left. exists x. split; auto. apply in_or_app; auto.
            -- injection E as <-. left. exists r'. split; [apply in_or_app; simpl; auto|].
               eapply row_fits_unique; eauto.
            -- right; eauto. }
    intros Hg. destruct (G rows [] Hg) as (l & El & Hl). exists l. split; auto.
    intros r. rewrite Hl. split; auto. intros [(x & [] & _)|]; auto.
  Qed.

  (** ** deduplication of rows *)

  Lemma fold_add_row_incl out : forall rows x, In x (fold_left add_row out rows) -> In x rows \/ In x out.
  Proof.
    induction out as [|y out IH]; simpl; intros rows x H; auto.
    apply IH in H as [H|H]; auto. unfold add_row in H.
    destruct (existsb _ rows); auto. apply in_app_or in H as [H|[H|[]]]; auto.
  Qed.

  Lemma add_row_keep rows y x : In x rows -> In x (add_row rows y).
  Proof. unfold add_row. destruct (existsb _ rows); auto. intros; apply in_or_app; auto. Qed.

  Lemma fold_add_row_keep out : forall rows x, In x rows -> In x (fold_left add_row out rows).
  Proof. induction out as [|y out IH]; simpl; intros; auto. apply IH. now apply add_row_keep. Qed.

  Lemma fold_add_row_repr out : forall rows x, In x out ->
    exists y, In y (fold_left add_row out rows) /\ py_str y = py_str x.
  Proof.
    induction out as [|z out IH]; simpl; intros rows x Hin; [destruct Hin|].
    destruct Hin as [->|H]; [|auto].
    assert (exists y, In y (add_row rows x) /\ py_str y = py_str x) as (y & Hy & Ey).
    { unfold add_row. destruct (existsb _ rows) eqn:E.
      - apply existsb_exists in E as (y & Hy & Ey). exists y. split; auto. now apply String.eqb_eq.
      - exists x. split; auto. apply in_or_app; simpl; auto. }
    exists y. split; auto. now apply fold_add_row_keep.
  Qed.

  Lemma fold_add_row_In ar out rows : good_rows ar rows -> good_rows ar out ->
    forall x, In x (fold_left add_row out rows) <-> In x rows \/ In x out.
  Proof.
    intros Hr Ho x. split; [apply fold_add_row_incl|]. intros [H|H]; [now apply fold_add_row_keep|].
    destruct (fold_add_row_repr out rows x H) as (y & Hy & Ey).
    destruct (Ho x H) as (ix & -> & _ & Dx).
    assert (Hyd : exists iy, y = VList iy /\ is_data y = true).
    { apply fold_add_row_incl in Hy as [Hy|Hy]; [destruct (Hr y Hy) as (iy & ? & _ & ?)
        |destruct (Ho y Hy) as (iy & ? & _ & ?)]; eauto. }
    destruct Hyd as (iy & -> & Dy). unfold py_str in Ey.
    apply repr_injective in Ey; auto. now rewrite <- Ey.
  Qed.

  (** ** running the queries of all relations with the predicate *)

  Inductive queries_return (sv : solver_if W) (vals args : list value) (b : binding)
    : list (relation W) -> W -> list value -> W -> Prop :=
  | qr_nil w : queries_return sv vals args b [] w [] w
  | qr_cons rel rels w rows w1 rest w2 :
      r_query rel sv vals (mkCtx (r_pred rel) (r_cols rel) args b) w = (Ok (QRows rows), w1) ->
      queries_return sv vals args b rels w1 rest w2 ->
      queries_return sv vals args b (rel :: rels) w (rows ++ rest) w2.

  Lemma collect_rows_spec sv many vals args b rels w outs w' :
    queries_return sv vals args b rels w outs w' ->
    forall acc, collect_rows sv many rels vals args b acc w = (Ok (QRows (fold_left add_row outs acc)), w').
  Proof.
    induction 1; intros acc; simpl; [reflexivity|].
    unfold bind. rewrite H. simpl. rewrite IHqueries_return, fold_left_app. reflexivity.
  Qed.
End Match.

Section Single.
  Context {W : Type}.
  Variable mods : list (modul W).

  Theorem single_atom_matching n p args b (w : W) outs w' :
    p <> DISJUNCTION -> find_relations mods w p <> [] ->
    queries_return (solver_at mods n) (db_values b args) args b (find_relations mods w p) w outs w' ->
    good_rows (length args) outs ->
    exists l, solve mods (S n) (VList [VTuple (VStr p :: args)]) b w = (Ok (SList l), w') /\
      forall r, mem r l <-> exists row, In (VList row) outs /\ row_fits b args row r.
  Proof.
    intros Hp Hne Hq Hg.
    assert (Hrows : good_rows (length args) (fold_left add_row outs [])).
    { intros x Hx. apply fold_add_row_incl in Hx as [[]|Hx]. auto. }
    destruct (create_results_spec b args (fold_left add_row outs []) w' Hrows) as (l & El & Hl).
    exists l. split.
    - unfold solve. simpl. unfold solve_single. unfold bind at 1. simpl.
      destruct (String.eqb_spec p DISJUNCTION); [contradiction|].
      unfold solve_relation. unfold bind at 1.
      assert (Hf : find_relation_values mods (solver_at mods n) p args b w
                   = (Ok (QRows (fold_left add_row outs [])), w')).
      { unfold find_relation_values, bind, get.
        destruct (find_relations mods w p) as [|rel rels]; [congruence|].
        apply collect_rows_spec. assumption. }
      rewrite Hf. unfold bind at 1.
      assert (Hc : check_first_row (fold_left add_row outs []) args w' = (Ok tt, w')).
      { unfold check_first_row. destruct (fold_left add_row outs []) as [|r0 rs]; [reflexivity|].
        destruct (Hrows r0 (or_introl eq_refl)) as (items & -> & Hlen & _).
        now rewrite Hlen, Nat.eqb_refl. }
      rewrite Hc. unfold bind. rewrite El. reflexivity.
    - intros r. rewrite Hl. split; intros (row & Hr & Hf); exists row; split; auto.
      + apply fold_add_row_incl in Hr as [[]|Hr]; auto.
      + apply (fold_add_row_In (length args)); auto. intros ? [].
  Qed.
End Single.
