(** * First-order queries: order, results and the core predicates *)

From Coq Require Import ZArith QArith String List Bool Lia Arith Ascii NArith.
From Verif Require Import Py PyFacts ReprProofs Effects EffectsFacts Solver SolverSpec
  SolverProofs SolverProofs2 MatchProofs Atoms AtomsFacts CoreModule CoreSpec CoreProofs CoreProofs2 CoreProofs3
  InferenceModule TableModule DatalogSpec DatalogProofs DatalogProofs2 FolSpec FolProofs.
Import ListNotations.
Local Close Scope Q_scope.
Local Open Scope nat_scope.
Local Open Scope string_scope.
Local Open Scope list_scope.

(** ** the order *)

Lemma str_lt_compare a : forall c, str_lt a c = true <-> String.compare a c = Lt.
Proof.
  induction a as [|x a IH]; intros [|y c]; simpl; try (split; congruence).
  unfold Ascii.compare. destruct (Ascii.eqb_spec x y) as [->|Hn].
  - rewrite N.compare_refl. apply IH.
  - destruct (N.compare_spec (N_of_ascii x) (N_of_ascii y)) as [E|E|E].
    + exfalso. apply Hn. rewrite <- (ascii_N_embedding x), <- (ascii_N_embedding y). now rewrite E.
    + split; auto. intros _. apply Nat.ltb_lt. unfold nat_of_ascii. lia.
    + split; [|discriminate]. intros F. apply Nat.ltb_lt in F. unfold nat_of_ascii in F. lia.
Qed.

Lemma Qlt_int x y : Qlt_bool (inject_Z x) (inject_Z y) = true <-> (x < y)%Z.
Proof. rewrite Qlt_bool_iff, <- Zlt_Qlt. reflexivity. Qed.

Definition lts : list value -> list value -> option bool :=
  fix lts (l m : list value) {struct l} : option bool :=
    match l, m with
    | [], [] => Some false
    | [], _ :: _ => Some true
    | _ :: _, [] => Some false
    | x :: l', y :: m' => if py_eq x y then lts l' m' else py_lt x y
    end.

Lemma lts_less l : Forall (fun a => forall c, plain a = true -> plain c = true ->
    forall r, py_lt a c = Some r -> (r = true <-> less a c)) l ->
  forall m, forallb plain l = true -> forallb plain m = true ->
  forall r, lts l m = Some r -> (r = true <-> less_seq l m).
Proof.
  induction 1 as [|x l Hx Hl IH]; intros [|y m] Pl Pm r Hr; simpl in Hr.
  - injection Hr as <-. split; [discriminate|]. intros F; inversion F.
  - injection Hr as <-. split; auto. constructor.
  - injection Hr as <-. split; [discriminate|]. intros F; inversion F.
  - simpl in Pl, Pm. apply andb_true_iff in Pl as [Px Pl]. apply andb_true_iff in Pm as [Py Pm].
    destruct (py_eq x y) eqn:E.
    + apply py_eq_plain in E; auto. subst y. rewrite (IH m Pl Pm r Hr). split.
      * now constructor.
      * intros F. inversion F; subst; [congruence|auto].
    + assert (Hn : x <> y) by (intros ->; rewrite py_eq_refl in E; discriminate).
      rewrite (Hx y Px Py r Hr). split.
      * intros Hlt. now apply ls_first.
      * intros F. inversion F; subst; auto. congruence.
Qed.

Lemma py_lt_less a : forall c, plain a = true -> plain c = true ->
  forall r, py_lt a c = Some r -> (r = true <-> less a c).
Proof.
  induction a using value_ind'; intros c Pa Pc r Hr; try discriminate.
  - destruct c; try discriminate. simpl in Hr. injection Hr as <-.
    rewrite Qlt_int. split; [now constructor|]. intros F; inversion F; auto.
  - destruct c; try discriminate. simpl in Hr. injection Hr as <-.
    rewrite str_lt_compare. split; [now constructor|]. intros F; inversion F; auto.
  - destruct c as [| | | | | | |m| |]; try discriminate. change (lts l m = Some r) in Hr.
    rewrite (lts_less l H m Pa Pc r Hr). split; [now constructor|]. intros F; inversion F; auto.
  - destruct c as [| | | | | | | |m|]; try discriminate. change (lts l m = Some r) in Hr.
    rewrite (lts_less l H m Pa Pc r Hr). split; [now constructor|]. intros F; inversion F; auto.
Qed.

(** ** well-formedness with other known variables *)

Section WfNear.
  Variable good_atom : fatom -> Prop.
  Variable H : list string.
  Notation wf := (well_formed good_atom).
  Notation wfs := (wfs good_atom).

  Definition wf_moves (f : fol) : Prop := forall B B',
    wf H B f -> near H (fol_vars f) B B' -> wf [] B' f.

  Lemma wfs_move q : Forall wf_moves q -> forall B B', wfs H B q -> near H (vars q) B B' -> wfs [] B' q.
  Proof.
    induction 1 as [|f q Hf Hq IH]; intros B B' Hw Hn; [exact I|].
    destruct Hw as [Hw1 Hw2]. split.
    - eapply Hf; eauto. eapply near_incl; [|exact Hn]. unfold vars. simpl. apply incl_appl, incl_refl.
    - eapply IH; eauto. apply near_more. eapply near_incl; [|exact Hn]. unfold vars. simpl. apply incl_appr, incl_refl.
  Qed.

  Lemma local_nil B xs : local [] B xs.
  Proof. intros x _. right. intros []. Qed.

  Lemma known_near B B' v xs : known_arg B v -> near H xs B B' -> incl (arg_vars [v]) xs -> known_arg B' v.
  Proof. destruct v; auto. simpl. intros Hk Hn Hi. apply Hn; auto. apply Hi. now left. Qed.

  Lemma wf_near f : wf_moves f.
  Proof.
    induction f as [a|t u|l t u|n q IH|q IH|alts IH|x range body IHr IHb|x q IH|c k q IH] using fol_ind';
      intros B B' Hw Hn.
    - exact Hw.
    - destruct Hw as (A1 & A2 & A3). split; auto. split; auto.
      destruct A3 as [A3|A3]; [left|right]; eapply known_near; eauto; simpl;
        intros y Hy; rewrite app_nil_r in Hy; apply in_or_app; auto. right. now rewrite app_nil_r.
    - destruct Hw as (A1 & A2 & A3 & A4). split; auto. split; auto.
      split; eapply known_near; eauto; simpl; intros y Hy; rewrite app_nil_r in Hy; apply in_or_app; auto.
      right. now rewrite app_nil_r.
    - rewrite wf_not in *. destruct Hw. split; [apply local_nil|]. eapply wfs_move; eauto.
    - rewrite wf_some in *. destruct Hw. split; [apply local_nil|]. eapply wfs_move; eauto.
    - rewrite wf_or in *. intros q Hq. destruct (Hw q Hq) as (A1 & A2 & A3).
      assert (Hv : incl (vars q) (fol_vars (FOr alts))).
      { intros y Hy. simpl. apply in_flat_map. exists q. auto. }
      split; [apply local_nil|]. split.
      + rewrite Forall_forall in IH. eapply wfs_move; eauto. eapply near_incl; eauto.
      + intros y. specialize (A3 y). rewrite !in_app_iff in *.
        assert (Hb : In y (binds q) \/ In y (fol_binds (FOr alts)) -> In y B -> In y B').
        { intros Hb. apply Hn. destruct Hb as [Hb|Hb].
          - apply Hv. now apply binds_vars.
          - now apply fol_binds_vars. }
        tauto.
    - rewrite wf_all in *. destruct Hw as (A1 & A2 & A3 & A4 & A5 & A6 & A7).
      assert (Nr : near H (vars range) B B').
      { eapply near_incl; [|exact Hn]. simpl. intros y Hy. right. apply in_or_app. auto. }
      assert (Nb : near H (vars body) (x :: B) (x :: B')).
      { apply (near_more H _ [x]). eapply near_incl; [|exact Hn]. simpl. intros y Hy. right. apply in_or_app. auto. }
      repeat split; auto using local_nil; try (eapply wfs_move; eauto).
      intros F. destruct (Hn x) as [_ N]; [now left|]. destruct (N F); auto.
    - rewrite wf_count in *. destruct Hw as (A1 & A2 & A3 & A4 & A5).
      assert (Nq : near H (vars q) B B').
      { eapply near_incl; [|exact Hn]. simpl. intros y Hy. now right. }
      repeat split; auto using local_nil; try (eapply wfs_move; eauto).
      intros F. destruct (Hn x) as [_ N]; [now left|]. destruct (N F); auto.
    - rewrite wf_det in *. destruct Hw. split; [apply local_nil|]. eapply wfs_move; eauto.
  Qed.

  Lemma wfs_near q B B' : wfs H B q -> near H (vars q) B B' -> wfs [] B' q.
  Proof. apply wfs_move. apply Forall_forall. intros f _. apply wf_near. Qed.
End WfNear.

(** all variables of a formula are found by [get_atom_variables] *)
Lemma fol_vars_value f : incl (fol_vars f) (atom_variables (fol_value f)).
Proof.
  assert (Hargs : forall l p, incl (arg_vars l) (atom_variables (VTuple (VStr p :: l)))).
  { intros l p x Hx. apply atom_variables_tuple. apply in_arg_vars in Hx. exists (VVar x). simpl. auto. }
  assert (Hq : forall q, Forall (fun f => incl (fol_vars f) (atom_variables (fol_value f))) q ->
     incl (flat_map fol_vars q) (atom_variables (VList (map fol_value q)))).
  { intros q Hf x Hx. apply in_flat_map in Hx as (f' & Hf' & Hx). apply atom_variables_list.
    exists (fol_value f'). split; [now apply in_map|]. rewrite Forall_forall in Hf. now apply (Hf f' Hf'). }
  assert (Ht : forall l v, In v l -> incl (atom_variables v) (atom_variables (VTuple l))).
  { intros l v Hv x Hx. apply atom_variables_tuple. eauto. }
  induction f as [a|t u|l t u|n q IH|q IH|alts IH|x range body IHr IHb|x q IH|c k q IH] using fol_ind'.
  - apply Hargs.
  - apply Hargs.
  - apply Hargs.
  - cbn [fol_vars fol_value]. eapply incl_tran; [apply Hq; exact IH|]. apply Ht. simpl; auto.
  - cbn [fol_vars fol_value]. eapply incl_tran; [apply Hq; exact IH|]. apply Ht. simpl; auto.
  - cbn [fol_vars fol_value]. eapply incl_tran; [|apply Ht; simpl; right; left; reflexivity].
    intros x Hx. apply in_flat_map in Hx as (q & Hqa & Hx). apply atom_variables_list.
    exists (VList (map fol_value q)). split; [now apply (in_map (fun q => VList (map fol_value q)))|].
    rewrite Forall_forall in IH. now apply (Hq q (IH q Hqa)).
  - cbn [fol_vars fol_value]. intros y [<-|Hy].
    + eapply Ht; [right; left; reflexivity|]. now left.
    + apply in_app_or in Hy as [Hy|Hy].
      * eapply Ht; [right; right; left; reflexivity|]. now apply (Hq range IHr).
      * eapply Ht; [right; right; right; left; reflexivity|]. now apply (Hq body IHb).
  - cbn [fol_vars fol_value]. intros y [<-|Hy].
    + eapply Ht; [right; left; reflexivity|]. now left.
    + eapply Ht; [right; right; left; reflexivity|]. now apply (Hq q IH).
  - cbn [fol_vars fol_value]. eapply incl_tran; [apply Hq; exact IH|]. apply Ht. simpl; auto.
Qed.

Lemma vars_values q : incl (vars q) (atoms_variables (map fol_value q)).
Proof.
  intros x Hx. apply in_flat_map in Hx as (f & Hf & Hx). apply atoms_variables_In.
  exists (fol_value f). split; [now apply in_map|]. now apply fol_vars_value.
Qed.

(** ** exact lists of results *)

Section Exact.
  Variable ext : string -> list value -> Prop.

  Record exact (q : list fol) (b : binding) (l : list binding) : Prop := {
    ex_sound : forall r, In r l -> const_binding r /\ extends b r /\
      (forall x, In x (keys b ++ binds q) <-> bget x r <> None) /\ all_hold ext (keys b) q (asg r);
    ex_complete : forall s, const_assignment s -> agrees s b -> all_hold ext (keys b) q s ->
      exists r, In r l /\ forall x, In x (keys b ++ binds q) -> bget x r = Some (s x);
    ex_distinct : no_duplicates l
  }.

  Lemma agrees_same s s' b : agrees s b -> same_on (keys b) s s' -> agrees s' b.
  Proof.
    intros Ha Hs x v Hx. rewrite <- (Ha x v Hx). symmetry. apply Hs. apply bget_In_keys. congruence.
  Qed.
  Lemma same_agrees s s' b : agrees s b -> agrees s' b -> same_on (keys b) s s'.
  Proof.
    intros Ha Ha' x Hx. apply bget_In_keys in Hx. destruct (bget x b) eqn:E; [|congruence].
    now rewrite (Ha _ _ E), (Ha' _ _ E).
  Qed.
  Lemma asg_agrees b r : extends b r -> agrees (asg r) b.
  Proof. intros He x v Hx. unfold asg. now rewrite (He _ _ Hx). Qed.

  Lemma exact_possible q b l s : exact q b l -> const_assignment s -> agrees s b ->
    (l <> [] <-> possible ext (keys b) q s).
  Proof.
    intros [E1 E2 _] Hs Ha. split.
    - intros Hne. destruct l as [|r l]; [congruence|].
      destruct (E1 r (or_introl eq_refl)) as (R1 & R2 & _ & R4).
      exists (asg r). split; [now apply asg_const|]. split; auto.
      apply (same_agrees s (asg r) b); auto. now apply asg_agrees.
    - intros (s' & Hs' & Hsame & Hh) ->.
      destruct (E2 s') as (r & [] & _); auto. eapply agrees_same; eauto.
  Qed.

  (** the number of results is the number of ways to meet the query *)
  Lemma exact_number q b l s : exact q b l -> const_assignment s -> agrees s b ->
    number ext (keys b) q s (length l).
  Proof.
    intros [E1 E2 E3] Hs Ha. exists (map (fun r => map (asg r) (binds q)) l).
    assert (Hinj : forall r r', In r l -> In r' l -> map (asg r) (binds q) = map (asg r') (binds q) ->
       dict_eq r r' = true).
    { intros r r' Hr Hr' Heq. destruct (E1 r Hr) as (R1 & R2 & R3 & _). destruct (E1 r' Hr') as (R1' & R2' & R3' & _).
      apply dict_eq_spec. intros x. 
      destruct (in_dec string_dec x (keys b ++ binds q)) as [Hx|Hx].
      - apply in_app_or in Hx as [Hx|Hx].
        + apply bget_In_keys in Hx. destruct (bget x b) eqn:E; [|congruence].
          rewrite (R2 _ _ E), (R2' _ _ E). apply opt_eq_refl.
        + assert (asg r x = asg r' x) as Hv.
          { clear -Heq Hx. induction (binds q) as [|y l IH]; [destruct Hx|]. simpl in Heq. injection Heq as H1 H2.
            destruct Hx as [->|Hx]; auto. }
          assert (N : bget x r <> None) by (apply R3; apply in_or_app; auto).
          assert (N' : bget x r' <> None) by (apply R3'; apply in_or_app; auto).
          unfold asg in Hv. destruct (bget x r), (bget x r'); try congruence. rewrite Hv. apply opt_eq_refl.
      - destruct (bget x r) eqn:E; [exfalso; apply Hx, R3; congruence|].
        destruct (bget x r') eqn:E'; [exfalso; apply Hx, R3'; congruence|]. reflexivity. }
    split; [|split].
    - apply NoDup_nth_error. rewrite map_length. intros i j Hi Heq.
      destruct (nth_error l i) as [r|] eqn:Er; [|apply nth_error_None in Er; lia].
      rewrite (map_nth_error _ _ _ Er) in Heq. symmetry in Heq.
      destruct (nth_error l j) as [r'|] eqn:Er'.
      2:{ assert (nth_error (map (fun r => map (asg r) (binds q)) l) j = None) as F
            by (apply nth_error_None; rewrite map_length; now apply nth_error_None). congruence. }
      rewrite (map_nth_error _ _ _ Er') in Heq. injection Heq as Heq.
      destruct (Nat.eq_dec i j) as [|Hn]; auto. exfalso.
      pose proof (E3 i j r r' Hn Er Er') as F. rewrite Hinj in F; try discriminate; auto;
        eapply nth_error_In; eauto.
    - now rewrite map_length.
    - intros row. rewrite in_map_iff. split.
      + intros (r & <- & Hr). destruct (E1 r Hr) as (R1 & R2 & R3 & R4).
        exists (asg r). split; [now apply asg_const|]. split; auto.
        apply (same_agrees s (asg r) b); auto. now apply asg_agrees.
      + intros (s' & Hs' & Hsame & Hh & ->).
        destruct (E2 s') as (r & Hr & Hv); auto; [eapply agrees_same; eauto|].
        exists r. split; auto. apply map_ext_in. intros x Hx. unfold asg.
        rewrite Hv; auto. apply in_or_app. auto.
  Qed.

  Lemma no_duplicates_nil : no_duplicates [].
  Proof. intros i j a b Hn Hi. destruct i; discriminate. Qed.
  Lemma no_duplicates_one b : no_duplicates [b].
  Proof. intros [|[|i]] [|[|j]] a c Hn Hi Hj; simpl in *; try discriminate; congruence. Qed.

  (** a formula that only tests *)
  Lemma test_exact f b l : const_binding b -> incl (fol_binds f) (keys b) ->
    (l = [b] /\ (forall s, const_assignment s -> agrees s b -> holds ext (keys b) f s)) \/
    (l = [] /\ (forall s, const_assignment s -> agrees s b -> ~ holds ext (keys b) f s)) ->
    exact [f] b l.
  Proof.
    intros Hb Hi [[-> Hh]|[-> Hh]].
    - constructor.
      + intros r [<-|[]]. split; auto. split; [apply extends_refl|]. split.
        * intros x. rewrite bget_In_keys. unfold binds. simpl. rewrite app_nil_r, in_app_iff.
          split; auto. intros [|]; auto.
        * split; [|exact I]. apply Hh; [now apply asg_const|]. apply asg_agrees, extends_refl.
      + intros s Hs Ha _. exists b. split; [now left|]. intros x Hx.
        assert (In x (keys b)) as Hk.
        { apply in_app_or in Hx as [|Hx]; auto. unfold binds in Hx. simpl in Hx. rewrite app_nil_r in Hx. auto. }
        apply bget_In_keys in Hk. destruct (bget x b) eqn:E; [|congruence]. now rewrite (Ha _ _ E).
      + apply no_duplicates_one.
    - constructor; [intros r []| |apply no_duplicates_nil].
      intros s Hs Ha [F _]. exfalso. eapply Hh; eauto.
  Qed.

  (** a formula that gives values to one variable *)
  Lemma values_exact f b x vs : const_binding b -> bget x b = None ->
    (forall y, In y (keys b ++ fol_binds f) <-> y = x \/ In y (keys b)) ->
    NoDup vs -> (forall v, In v vs -> constant v = true) ->
    (forall s, const_assignment s -> agrees s b -> (holds ext (keys b) f s <-> In (s x) vs)) ->
    exact [f] b (map (fun v => bset x v b) vs).
  Proof.
    intros Hb Hx Hd Hn Hc Hh.
    assert (Hd' : forall y, In y (keys b ++ binds [f]) <-> y = x \/ In y (keys b)).
    { intros y. rewrite <- Hd. unfold binds. simpl. now rewrite app_nil_r. }
    assert (He : forall v, extends b (bset x v b)).
    { intros v. apply extends_bset; auto. apply extends_refl. }
    assert (Hcb : forall v, In v vs -> const_binding (bset x v b)).
    { intros v Hv y u. rewrite bget_bset. destruct (String.eqb x y); [intros [= <-]; auto|apply Hb]. }
    constructor.
    - intros r Hr. apply in_map_iff in Hr as (v & <- & Hv).
      split; auto. split; auto. split.
      + intros y. rewrite Hd', bget_bset. destruct (String.eqb_spec x y) as [->|Hne].
        * split; [discriminate|auto].
        * rewrite bget_In_keys. split; auto. intros [->|]; auto. congruence.
      + split; [|exact I]. apply Hh; [apply asg_const; auto|apply asg_agrees; auto|].
        unfold asg. now rewrite bget_bset_same.
    - intros s Hs Ha [Hf _]. apply Hh in Hf; auto.
      exists (bset x (s x) b). split; [now apply (in_map (fun v => bset x v b))|].
      intros y Hy. apply Hd' in Hy as [->|Hy]; [apply bget_bset_same|].
      rewrite bget_bset. destruct (String.eqb_spec x y) as [->|]; auto.
      apply bget_In_keys in Hy. destruct (bget y b) eqn:E; [|congruence]. now rewrite (Ha _ _ E).
    - intros i j a c Hij Hi Hj.
      rewrite nth_error_map in Hi, Hj.
      destruct (nth_error vs i) as [v|] eqn:Ei; [|discriminate]. destruct (nth_error vs j) as [u|] eqn:Ej; [|discriminate].
      injection Hi as <-. injection Hj as <-.
      destruct (dict_eq (bset x v b) (bset x u b)) eqn:E; auto. exfalso. apply Hij.
      rewrite NoDup_nth_error in Hn. apply Hn; [apply nth_error_Some; congruence|].
      rewrite Ei, Ej. f_equal.
      apply (dict_eq_plain _ _ (Hcb v (nth_error_In _ _ Ei)) (Hcb u (nth_error_In _ _ Ej))) with (k := x) in E.
      rewrite !bget_bset_same in E. congruence.
  Qed.
End Exact.

(** ** [all] *)

Lemma first_values_exist es : forall seen, exists kept, first_values seen es kept.
Proof.
  induction es as [|e es IH]; intros seen; [exists []; constructor|].
  destruct (py_in e seen) eqn:E.
  - apply py_in_spec in E as (y & Hy & Ey). destruct (IH seen) as [kept Hk]. exists kept. eapply fv_old; eauto.
  - destruct (IH (e :: seen)) as [kept Hk]. exists (e :: kept). apply fv_new; auto.
    intros y Hy. destruct (py_eq e y) eqn:F; auto.
    assert (py_in e seen = true); [|congruence]. apply py_in_spec. eauto.
Qed.

Lemma first_values_all es : (forall e, In e es -> plain e = true) -> forall seen kept,
  first_values seen es kept -> (forall e, In e seen -> plain e = true) ->
  forall e, In e es -> In e kept \/ In e seen.
Proof.
  intros Hp seen kept Hf. induction Hf as [seen|seen x y l kept Hy Heq Hf IH|seen x l kept Hn Hf IH];
    intros Hs e He; [destruct He| |].
  - destruct He as [<-|He].
    + right. apply py_eq_plain in Heq; auto; [|apply Hp; now left]. now subst.
    + apply IH; auto. intros e' He'. apply Hp. now right.
  - destruct He as [<-|He]; [left; now left|].
    destruct (IH) with (e := e) as [|[<-|]]; auto.
    + intros e' He'. apply Hp. now right.
    + intros e' [<-|He']; auto. apply Hp. now left.
    + left. now right.
    + left. now left.
Qed.

Section All.
  Context {W : Type}.
  Variable mods : list (modul W).

  Lemma oset_hashable es : forall acc (w0 : W) out w', foldM oset_add acc es w0 = (Ok out, w') ->
    w' = w0 /\ Forall (fun e => hashable e = true) es.
  Proof.
    induction es as [|e es IH]; intros acc w0 out w' H.
    - simpl in H. inv_ret H. auto.
    - cbn [foldM] in H. inv_bind H. unfold oset_add in E. destruct (hashable e) eqn:Eh; [|discriminate].
      inv_ret E. apply IH in H as [-> H]. auto.
  Qed.

  Lemma entities_inv x rs : forall acc (w0 : W) out w', foldM (entity_of (VVar x)) acc rs w0 = (Ok out, w') ->
    w' = w0 /\ exists es, out = acc ++ es /\ Forall2 (fun r e => bget x r = Some e) rs es.
  Proof.
    induction rs as [|r rs IH]; intros acc w0 out w' H.
    - simpl in H. inv_ret H. split; auto. exists []. rewrite app_nil_r. auto.
    - cbn [foldM] in H. inv_bind H. unfold entity_of, bind, lookup in E. cbn [name_of ret] in E.
      destruct (bget x r) as [v|] eqn:Ex; [|discriminate]. unfold ret in E. injection E as <- <-.
      apply IH in H as (-> & es & -> & Hf). split; auto. exists (v :: es).
      rewrite <- app_assoc. auto.
  Qed.

  Lemma all_body_inv (w : W) (P : value -> Prop) n x body b ents : Forall P ents ->
    (forall e res w', P e -> solve mods n (VList body) (bset x e b) w = (Ok res, w') -> w' = w) ->
    forall acc out w', foldM (all_step (solver_at mods n) (VVar x) (VList body) b) acc ents w = (Ok out, w') ->
    w' = w /\ forall e, In e ents -> exists r, solve mods n (VList body) (bset x e b) w = (Ok r, w).
  Proof.
    intros HP Hp. induction HP as [|e ents He HP IH]; intros acc out w' H.
    - simpl in H. inv_ret H. split; auto. intros e [].
    - cbn [foldM] in H. inv_bind H. unfold all_step in E. unfold bind at 1 in E. cbn [name_of ret] in E.
      inv_bind E. change (sv_solve (solver_at mods n)) with (solve mods n) in E0.
      pose proof (Hp _ _ _ He E0) as ->.
      assert (w0 = w) as ->.
      { destruct (sres_len a0); [inv_ret E; auto|]. unfold oset_add in E.
        destruct (hashable e); [inv_ret E; auto|discriminate]. }
      apply IH in H as [-> H]. split; auto. intros e' [<-|He']; eauto.
  Qed.

  Lemma all_inv (w : W) (P : value -> Prop) n x range body b res w' : only_core mods w "all" ->
    (forall res w', solve mods n (VList range) b w = (Ok res, w') -> w' = w /\ exists l, res = SList l /\
       forall r e, In r l -> bget x r = Some e -> P e) ->
    (forall e res w', P e -> solve mods n (VList body) (bset x e b) w = (Ok res, w') -> w' = w) ->
    solve mods (S n) (VList [VTuple [VStr "all"; VVar x; VList range; VList body]]) b w = (Ok res, w') ->
    exists rs es ents,
      solve mods n (VList range) b w = (Ok (SList rs), w) /\
      Forall2 (fun r e => bget x r = Some e) rs es /\
      Forall (fun e => hashable e = true) es /\
      first_values [] es ents /\
      (forall e, In e ents -> exists r, solve mods n (VList body) (bset x e b) w = (Ok r, w)).
  Proof.
    intros H Hr Hb Hs.
    erewrite (core_solve mods n "all" (@q_all W)) in Hs by (try eassumption; try reflexivity; discriminate).
    inv_bind Hs. clear Hs. unfold q_all, item in E. cbn [c_args c_binding nth_error db_values map db_value] in E.
    inv_bind E. inv_ret E0. inv_bind E. inv_ret E0. inv_bind E. inv_ret E0.
    inv_bind E. change (sv_solve (solver_at mods n)) with (solve mods n) in E0.
    destruct (Hr _ _ E0) as (-> & rs & -> & HP).
    inv_bind E. cbn [sres_items] in E1. inv_ret E1.
    inv_bind E. apply entities_inv in E1 as (-> & es & -> & Hf). cbn [app] in E.
    inv_bind E. pose proof (oset_hashable _ _ _ _ _ E1) as [-> Hh].
    destruct (first_values_exist es []) as [ents Hk].
    rewrite (all_distinct es [] ents _ Hh Hk) in E1. cbn [app] in E1. injection E1 as <-.
    assert (HPe : Forall P ents).
    { apply Forall_forall. intros e He. apply (first_values_In _ _ _ Hk) in He.
      apply In_nth_error in He as [i Hi]. destruct (nth_error a0 i) as [r|] eqn:Er.
      - destruct (Forall2_nth _ _ _ Hf i r Er) as (e' & He' & Hv). rewrite Hi in He'. injection He' as <-.
        eapply HP; eauto. eapply nth_error_In; eauto.
      - apply nth_error_None in Er. rewrite (Forall2_len _ _ _ Hf) in Er.
        apply nth_error_None in Er. congruence. }
    inv_bind E. apply (all_body_inv _ P) in E1 as [-> Hbody]; auto.
    exists a0, es, ents. auto 8.
  Qed.
End All.
