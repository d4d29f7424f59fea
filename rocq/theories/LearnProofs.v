(** * Learned rules: filling in values that are known already *)

From Coq Require Import ZArith String List Bool Lia Arith.
From Verif Require Import Py PyFacts ReprProofs Effects EffectsFacts Atoms AtomsFacts
  DatalogSpec DatalogProofs DatalogProofs2 FolSpec FolProofs FolProofs2.
Import ListNotations.
Local Open Scope nat_scope.
Local Open Scope string_scope.
Local Open Scope list_scope.

Section Fill.
  Variable b : binding.
  Hypothesis Hb : const_binding b.

  Definition free (x : string) : bool := match bget x b with Some _ => false | None => true end.
  Definition fill_arg (v : value) : value :=
    match v with VVar x => match bget x b with Some u => u | None => v end | _ => v end.
  Definition fill_atom (a : fatom) : fatom := mkAtom (fa_pred a) (map fill_arg (fa_args a)).

  (** the formula with the values of [b] in the places of the variables *)
  Fixpoint fill (f : fol) : fol :=
    match f with
    | FAtom a => FAtom (fill_atom a)
    | FEq t u => FEq (fill_arg t) (fill_arg u)
    | FCmp l t u => FCmp l (fill_arg t) (fill_arg u)
    | FNot n q => FNot n (map fill q)
    | FSome q => FSome (map fill q)
    | FOr alts => FOr (map (map fill) alts)
    | FAll x range body => FAll x (map fill range) (map fill body)
    | FCount x q => FCount x (map fill q)
    | FDet c k q => FDet c k (map fill q)
    end.

  (** the assignment that has the values of [b], and for the other variables
      those of [s] *)
  Definition given (s : assignment) : assignment :=
    fun x => match bget x b with Some v => v | None => s x end.

  Lemma given_const s : const_assignment s -> const_assignment (given s).
  Proof. intros Hs x. unfold given. destruct (bget x b) eqn:E; auto. eapply Hb; eauto. Qed.
  Lemma given_agrees s : agrees (given s) b.
  Proof. intros x v E. unfold given. now rewrite E. Qed.
  Lemma given_free s x : free x = true -> given s x = s x.
  Proof. unfold free, given. now destruct (bget x b). Qed.

  Lemma free_keys x : free x = true <-> ~ In x (keys b).
  Proof.
    unfold free. rewrite <- bget_In_keys. destruct (bget x b); split; intros; try congruence; auto.
    exfalso. apply H. congruence.
  Qed.
  Lemma not_free_keys x : free x = false <-> In x (keys b).
  Proof. unfold free. rewrite <- bget_In_keys. destruct (bget x b); split; intros; try congruence; auto. Qed.

  Lemma fill_inst s v : inst s (fill_arg v) = inst (given s) v.
  Proof.
    destruct v; auto. unfold given. simpl.
    match goal with |- context [bget ?y b] => destruct (bget y b) as [u|] eqn:E end; auto.
    apply Hb in E. now destruct u.
  Qed.
  Lemma fill_insts s l : map (inst s) (map fill_arg l) = map (inst (given s)) l.
  Proof. rewrite map_map. apply map_ext. apply fill_inst. Qed.

  Lemma fill_arg_vars l : arg_vars (map fill_arg l) = filter free (arg_vars l).
  Proof.
    induction l as [|v l IH]; auto. destruct v; auto. simpl. unfold free at 1.
    match goal with |- context [bget ?y b] => destruct (bget y b) as [u|] eqn:E end; simpl; rewrite IH; auto.
    apply Hb in E. now destruct u.
  Qed.

  Lemma fill_flat v : flat_arg v -> flat_arg (fill_arg v).
  Proof.
    intros [(x & ->)|Hc]; [|right; now destruct v]. simpl. destruct (bget x b) as [u|] eqn:E.
    - right. eapply Hb; eauto.
    - left. eauto.
  Qed.

  (** ** sorts *)
  Section Sorts.
    Variable sig : string -> list sort.
    Variable env : string -> sort.
    Hypothesis Hs : forall x v, bget x b = Some v -> of_sort (env x) v.

    Lemma fill_arg_sorted c v : arg_sorted env c v -> arg_sorted env c (fill_arg v).
    Proof.
      destruct v; auto. simpl. destruct (bget name b) as [u|] eqn:E; auto. intros <-.
      pose proof (Hb _ _ E) as Hc. apply Hs in E. now destruct u.
    Qed.
    Lemma fill_sorted f : sorted sig env f -> sorted sig env (fill f).
    Proof.
      assert (G : forall q, Forall (fun f => sorted sig env f -> sorted sig env (fill f)) q ->
        all_sorted sig env q -> all_sorted sig env (map fill q)).
      { induction 1 as [|g q Hg Hq IH]; [intros _; exact I|]. intros [S1 S2]. split; auto. }
      induction f as [a|t u|l t u|n q IH|q IH|alts IH|x range body IHr IHb|x q IH|c k q IH] using fol_ind';
        cbn [fill]; intros H.
      - cbn [sorted fill_atom fa_pred fa_args] in *. induction H; cbn [map]; constructor; auto using fill_arg_sorted.
      - destruct H as (c & H1 & H2). exists c. split; now apply fill_arg_sorted.
      - destruct H as (c & H1 & H2). exists c. split; now apply fill_arg_sorted.
      - apply (G q IH H).
      - apply (G q IH H).
      - induction IH as [|q alts Hq Ha IH]; [exact I|]. destruct H as [H1 H2]. split; [exact (G q Hq H1)|exact (IH H2)].
      - destruct H as [H1 H2]. split; [exact (G range IHr H1)|exact (G body IHb H2)].
      - destruct H as [H1 H2]. split; [exact H1|exact (G q IH H2)].
      - apply (G q IH H).
    Qed.
    Lemma fill_all_sorted q : all_sorted sig env q -> all_sorted sig env (map fill q).
    Proof. induction q as [|f q IH]; auto. intros [H1 H2]. split; auto using fill_sorted. Qed.
  End Sorts.

  Section Wf.
    Variable GA : fatom -> Prop.
    Hypothesis HGA : forall a, GA a -> GA (fill_atom a).
    Variable H : list string.
    Notation wf := (well_formed GA H).
    Notation wfs := (wfs GA H).

    (** what is known before and after filling in *)
    Definition beside (C B : list string) : Prop := forall x, In x C <-> In x (keys b) \/ In x B.

    Lemma beside_free C B x : beside C B -> ~ In x C -> free x = true.
    Proof. intros Hc Hx. apply free_keys. intros F. apply Hx, Hc. auto. Qed.

    Definition binds_filled f := forall C B, beside C B -> wf C f -> fol_binds (fill f) = filter free (fol_binds f).

    Lemma beside_more C B f : beside C B -> fol_binds (fill f) = filter free (fol_binds f) ->
      beside (fol_binds f ++ C) (fol_binds (fill f) ++ B).
    Proof.
      intros Hc E x. rewrite E, !in_app_iff, filter_In, (Hc x).
      destruct (free x) eqn:F; [tauto|]. apply not_free_keys in F. tauto.
    Qed.

    Lemma binds_filled_all q : Forall binds_filled q -> forall C B, beside C B -> wfs C q ->
      binds (map fill q) = filter free (binds q).
    Proof.
      induction 1 as [|f q Hf Hq IH]; intros C B Hc Hw; auto. destruct Hw as [W1 W2].
      pose proof (Hf C B Hc W1) as E. cbn [map binds flat_map]. rewrite filter_app.
      unfold binds in IH. rewrite E. f_equal. eapply IH; [|exact W2].
      apply (beside_more C B f); auto.
    Qed.

    Lemma fill_binds f : binds_filled f.
    Proof.
      induction f as [a|t u|l t u|n q IH|q IH|alts IH|x range body IHr IHb|x q IH|c k q IH] using fol_ind';
        intros C B Hc Hw; try reflexivity.
      - apply fill_arg_vars.
      - apply (fill_arg_vars [t; u]).
      - destruct alts as [|q alts]; auto. apply Forall_inv in IH. rewrite wf_or in Hw.
        destruct (Hw q) as (_ & Wq & _); [now left|]. cbn [fill fol_binds map].
        apply (binds_filled_all q IH C B); auto.
      - rewrite wf_all in Hw. destruct Hw as (X & _). cbn [fill fol_binds filter].
        now rewrite (beside_free C B x Hc X).
      - rewrite wf_count in Hw. destruct Hw as (X & _). cbn [fill fol_binds filter].
        now rewrite (beside_free C B x Hc X).
    Qed.

    Lemma fill_bindss q C B : beside C B -> wfs C q -> binds (map fill q) = filter free (binds q).
    Proof. apply binds_filled_all. apply Forall_forall. intros f _. apply fill_binds. Qed.

    (** ** variables and predicates *)
    Lemma fill_vars_incl f : forall x, In x (fol_vars (fill f)) -> In x (fol_vars f).
    Proof.
      assert (G : forall q, Forall (fun f => forall x, In x (fol_vars (fill f)) -> In x (fol_vars f)) q ->
        forall x, In x (flat_map fol_vars (map fill q)) -> In x (flat_map fol_vars q)).
      { intros q Hq x Hx. apply in_flat_map in Hx as (g & Hg & Hx). apply in_map_iff in Hg as (f' & <- & Hf).
        apply in_flat_map. exists f'. split; auto. rewrite Forall_forall in Hq. now apply Hq. }
      induction f as [a|t u|l t u|n q IH|q IH|alts IH|x range body IHr IHb|x q IH|c k q IH] using fol_ind';
        cbn [fill fol_vars]; intros y Hy; auto.
      - cbn [fill_atom fa_args] in Hy. rewrite fill_arg_vars in Hy. now apply filter_In in Hy.
      - change [fill_arg t; fill_arg u] with (map fill_arg [t; u]) in Hy.
        rewrite fill_arg_vars in Hy. now apply filter_In in Hy.
      - change [fill_arg t; fill_arg u] with (map fill_arg [t; u]) in Hy.
        rewrite fill_arg_vars in Hy. now apply filter_In in Hy.
      - apply in_flat_map in Hy as (q' & Hq & Hy). apply in_map_iff in Hq as (q & <- & Hq).
        apply in_flat_map. exists q. split; auto. rewrite Forall_forall in IH. apply G; auto.
      - destruct Hy as [->|Hy]; [now left|]. right. apply in_app_iff in Hy. apply in_app_iff.
        destruct Hy; [left|right]; now apply G.
      - destruct Hy as [->|Hy]; [now left|]. right. now apply G.
    Qed.
    Lemma fill_vars q x : In x (vars (map fill q)) -> In x (vars q).
    Proof.
      intros Hx. apply in_flat_map in Hx as (g & Hg & Hx). apply in_map_iff in Hg as (f & <- & Hf).
      apply in_flat_map. exists f. split; auto. now apply fill_vars_incl.
    Qed.

    Lemma fill_preds f : fol_preds (fill f) = fol_preds f.
    Proof.
      assert (G : forall q, Forall (fun f => fol_preds (fill f) = fol_preds f) q ->
        flat_map fol_preds (map fill q) = flat_map fol_preds q).
      { induction 1 as [|f' q Hf Hq IH]; auto. simpl. now rewrite Hf, IH. }
      induction f as [a|t u|l t u|n q IH|q IH|alts IH|x range body IHr IHb|x q IH|c k q IH] using fol_ind';
        cbn [fill fol_preds]; auto.
      - induction IH as [|q alts Hq Ha IH]; auto. simpl. now rewrite IH, G.
      - now rewrite !G.
    Qed.

    (** ** filling in keeps formulas well-formed *)
    Notation H' := (filter free H).
    Notation wf' := (well_formed GA H').
    Notation wfs' := (FolSpec.wfs GA H').

    Lemma fill_known C B v : beside C B -> known_arg C v -> known_arg B (fill_arg v).
    Proof.
      intros Hc Hk. destruct v; auto; try exact I. rename name into x. simpl in *.
      destruct (bget x b) as [u|] eqn:E.
      - apply Hb in E. now destruct u.
      - apply Hc in Hk as [Hk|Hk]; auto. apply bget_In_keys in Hk. congruence.
    Qed.
    Lemma fill_local C B q : beside C B -> local H C (vars q) -> local H' B (vars (map fill q)).
    Proof.
      intros Hc Hl x Hx. apply fill_vars in Hx. destruct (free x) eqn:F.
      - destruct (Hl x Hx) as [Hi|Hn].
        + left. apply Hc in Hi as [Hi|Hi]; auto. apply free_keys in F. contradiction.
        + right. rewrite filter_In. tauto.
      - right. rewrite filter_In. intros [_ F']. congruence.
    Qed.

    Definition stays_wf f := forall C B, beside C B -> wf C f -> wf' B (fill f).
    Lemma stays_wf_all q : Forall stays_wf q -> forall C B, beside C B -> wfs C q -> wfs' B (map fill q).
    Proof.
      induction 1 as [|f q Hf Hq IH]; intros C B Hc Hw; [exact I|]. destruct Hw as [W1 W2].
      cbn [map FolSpec.wfs]. split; [eapply Hf; eauto|]. eapply IH; [|exact W2].
      apply beside_more; auto. eapply fill_binds; eauto.
    Qed.
    Lemma beside_cons C B x : beside C B -> beside (x :: C) (x :: B).
    Proof. intros Hc y. simpl. rewrite (Hc y). tauto. Qed.

    Lemma fill_wf f : stays_wf f.
    Proof.
      induction f as [a|t u|l t u|n q IH|q IH|alts IH|x range body IHr IHb|x q IH|c k q IH] using fol_ind';
        intros C B Hc Hw; cbn [fill].
      - apply HGA. exact Hw.
      - destruct Hw as (W1 & W2 & W3). split; [|split]; try (now apply fill_flat).
        destruct W3; [left|right]; eapply fill_known; eauto.
      - destruct Hw as (W1 & W2 & W3 & W4). split; [|split; [|split]]; try (now apply fill_flat);
          eapply fill_known; eauto.
      - rewrite wf_not in *. destruct Hw. split; [eapply fill_local; eauto|eapply stays_wf_all; eauto].
      - rewrite wf_some in *. destruct Hw. split; [eapply fill_local; eauto|eapply stays_wf_all; eauto].
      - pose proof (fill_binds (FOr alts) C B Hc Hw) as E. cbn [fill] in E.
        rewrite wf_or in Hw. apply wf_or. intros q' Hq'. apply in_map_iff in Hq' as (q & <- & Hq).
        destruct (Hw q Hq) as (W1 & W2 & W3). rewrite Forall_forall in IH.
        split; [eapply fill_local; eauto|]. split; [eapply stays_wf_all; eauto|].
        intros x. rewrite E, (fill_bindss q C B Hc W2).
        specialize (W3 x). rewrite !in_app_iff in *. rewrite !filter_In.
        rewrite (Hc x) in W3. destruct (free x) eqn:F.
        + apply free_keys in F. tauto.
        + split; (intros [[_ ?]|?]; [discriminate|auto]).
      - rewrite wf_all in *. destruct Hw as (X1 & X2 & X3 & X4 & X5 & X6 & X7).
        pose proof (beside_free C B x Hc X1) as F. pose proof (beside_cons C B x Hc) as Hc'.
        split; [intros Hx; apply X1, Hc; auto|]. split; [rewrite filter_In; tauto|].
        split; [rewrite (fill_bindss range C B Hc X5), filter_In; auto|].
        split; [eapply fill_local; eauto|]. split; [eapply stays_wf_all; eauto|].
        split; [eapply fill_local; eauto|eapply stays_wf_all; eauto].
      - rewrite wf_count in *. destruct Hw as (X1 & X2 & X3 & X4 & X5).
        split; [intros Hx; apply X1, Hc; auto|]. split; [rewrite filter_In; tauto|].
        split; [intros Hx; apply X3; now apply fill_vars|].
        split; [eapply fill_local; eauto|eapply stays_wf_all; eauto].
      - rewrite wf_det in *. destruct Hw. split; [eapply fill_local; eauto|eapply stays_wf_all; eauto].
    Qed.
    Lemma fill_wfs q C B : beside C B -> wfs C q -> wfs' B (map fill q).
    Proof. apply stays_wf_all. apply Forall_forall. intros f _. apply fill_wf. Qed.

    (** ** what the substitution of the system does *)
    Lemma bind_arg v : flat_arg v -> bind_variables v b = fill_arg v.
    Proof.
      intros [(x & ->)|Hc]; [reflexivity|].
      rewrite bind_variables_no_variables; [now destruct v|].
      intros x Hx. exfalso. apply (plain_no_variables v) with (x := x); auto.
    Qed.
    Lemma bind_args l : (forall v, In v l -> flat_arg v) -> map (fun a => bind_variables a b) l = map fill_arg l.
    Proof. intros Hl. apply map_ext_in. intros v Hv. apply bind_arg. auto. Qed.
    Lemma bind_free x : free x = true -> bind_variables (VVar x) b = VVar x.
    Proof. unfold free. simpl. now destruct (bget x b). Qed.

    Hypothesis HGflat : forall a v, GA a -> In v (fa_args a) -> flat_arg v.

    Definition bound_like f := forall C B, beside C B -> wf C f -> bind_variables (fol_value f) b = fol_value (fill f).
    Lemma bound_like_all q : Forall bound_like q -> forall C B, beside C B -> wfs C q ->
      map (fun a => bind_variables a b) (map fol_value q) = map fol_value (map fill q).
    Proof.
      induction 1 as [|f q Hf Hq IH]; intros C B Hc Hw; auto. destruct Hw as [W1 W2].
      cbn [map]. f_equal; [eapply Hf; eauto|]. eapply IH; [|exact W2].
      apply beside_more; [exact Hc|]. eapply fill_binds; eauto.
    Qed.

    Lemma bind_fill f : bound_like f.
    Proof.
      induction f as [a|t u|l t u|n q IH|q IH|alts IH|x range body IHr IHb|x q IH|c k q IH] using fol_ind';
        intros C B Hc Hw; cbn [fill fol_value bind_variables map].
      - unfold atom_value, fill_atom. cbn [bind_variables map fa_pred fa_args].
        rewrite bind_args; auto. intros v Hv. eapply HGflat; eauto.
      - destruct Hw as (W1 & W2 & _). now rewrite !bind_arg.
      - destruct Hw as (W1 & W2 & _). now rewrite !bind_arg.
      - rewrite wf_not in *. destruct Hw as [_ Hw]. now rewrite (bound_like_all q IH C B).
      - rewrite wf_some in *. destruct Hw as [_ Hw]. now rewrite (bound_like_all q IH C B).
      - rewrite wf_or in Hw. do 3 f_equal. f_equal. rewrite !map_map. apply map_ext_in. intros q Hq.
        destruct (Hw q Hq) as (_ & W & _). rewrite Forall_forall in IH. cbn [bind_variables]. f_equal.
        apply (bound_like_all q (IH q Hq) C B); auto.
      - rewrite wf_all in *. destruct Hw as (X1 & X2 & X3 & X4 & X5 & X6 & X7).
        pose proof (bind_free x (beside_free C B x Hc X1)) as E. cbn [bind_variables] in E. rewrite E.
        rewrite (bound_like_all range IHr C B), (bound_like_all body IHb (x :: C) (x :: B)); auto.
        now apply beside_cons.
      - rewrite wf_count in *. destruct Hw as (X1 & X2 & X3 & X4 & X5).
        pose proof (bind_free x (beside_free C B x Hc X1)) as E. cbn [bind_variables] in E. rewrite E.
        rewrite (bound_like_all q IH C B); auto.
      - rewrite wf_det in *. destruct Hw as [_ Hw]. rewrite (bound_like_all q IH C B); auto.
    Qed.
    Lemma bind_fills q C B : beside C B -> wfs C q ->
      map (fun a => bind_variables a b) (map fol_value q) = map fol_value (map fill q).
    Proof. apply bound_like_all. apply Forall_forall. intros f _. apply bind_fill. Qed.

    (** ** the meaning of a formula with values filled in *)
    Section Meaning.
      Variable ext : string -> list value -> Prop.

      Lemma lift (P : assignment -> Prop) C B s : beside C B -> const_assignment s ->
        (forall t t', const_assignment t -> const_assignment t' -> (forall x, t x = t' x) -> P t -> P t') ->
        (exists t, const_assignment t /\ same_on B s t /\ P (given t)) <->
        (exists t, const_assignment t /\ same_on C (given s) t /\ P t).
      Proof.
        intros Hc Hs HP. split; intros (t & Ht & Hst & Hp).
        - exists (given t). split; [now apply given_const|]. split; auto.
          intros x Hx. unfold given. destruct (bget x b) eqn:E; auto. apply Hst.
          apply Hc in Hx as [Hx|Hx]; auto. apply bget_In_keys in Hx. congruence.
        - exists (fun x => if free x then t x else s x).
          assert (E : forall x, given (fun x => if free x then t x else s x) x = t x).
          { intros x. unfold given. destruct (bget x b) as [v|] eqn:E.
            - rewrite <- (Hst x); [unfold given; now rewrite E|]. apply Hc. left. apply bget_In_keys. congruence.
            - unfold free. now rewrite E. }
          assert (K : const_assignment (fun x => if free x then t x else s x)).
          { intros x. destruct (free x); auto. }
          split; auto. split.
          + intros x Hx. destruct (free x) eqn:F; auto. rewrite <- (Hst x); [|apply Hc; auto].
            symmetry. now apply given_free.
          + eapply HP; [| |intros x; symmetry; apply E|exact Hp]; auto. now apply given_const.
      Qed.

      Lemma all_hold_pointwise C q t t' : wfs C q -> const_assignment t -> const_assignment t' ->
        (forall x, t x = t' x) -> all_hold ext C q t -> all_hold ext C q t'.
      Proof.
        intros Hw Ht Ht' E Hh. eapply all_hold_stable; [exact Hw|exact Ht|exact Ht'| |exact Hh].
        intros x _ _. apply E.
      Qed.

      Fixpoint expand (xs : list string) (row : list value) : list value :=
        match xs with
        | [] => []
        | x :: xs' =>
            match bget x b with
            | Some v => v :: expand xs' row
            | None => hd VNone row :: expand xs' (tl row)
            end
        end.
      Fixpoint contract (xs : list string) (row : list value) : list value :=
        match xs with
        | [] => []
        | x :: xs' => if free x then hd VNone row :: contract xs' (tl row) else contract xs' (tl row)
        end.
      Lemma expand_map t xs : expand xs (map t (filter free xs)) = map (given t) xs.
      Proof.
        induction xs as [|x xs IH]; auto. cbn [expand filter map]. destruct (free x) eqn:F.
        - rewrite (given_free t x F). unfold free in F. destruct (bget x b) eqn:E; [discriminate|].
          simpl. now rewrite IH.
        - unfold free in F. unfold given at 1. destruct (bget x b) eqn:E; [|discriminate].
          now rewrite IH.
      Qed.
      Lemma contract_map t xs : contract xs (map t xs) = map t (filter free xs).
      Proof. induction xs as [|x xs IH]; auto. simpl. destruct (free x); simpl; now rewrite IH. Qed.
      Lemma given_free_map t xs : map (given t) (filter free xs) = map t (filter free xs).
      Proof. apply map_ext_in. intros x Hx. apply filter_In in Hx as [_ Hx]. now apply given_free. Qed.

      Definition means f := forall C B s, beside C B -> wf C f -> const_assignment s ->
        (holds ext B (fill f) s <-> holds ext C f (given s)).
      Lemma means_all q : Forall means q -> forall C B s, beside C B -> wfs C q -> const_assignment s ->
        (all_hold ext B (map fill q) s <-> all_hold ext C q (given s)).
      Proof.
        induction 1 as [|f q Hf Hq IH]; intros C B s Hc Hw Hs; [simpl; tauto|]. destruct Hw as [W1 W2].
        cbn [map all_hold]. rewrite (Hf C B s Hc W1 Hs).
        rewrite (IH (fol_binds f ++ C) (fol_binds (fill f) ++ B) s); [tauto| |exact W2|exact Hs].
        apply beside_more; [exact Hc|]. eapply fill_binds; eauto.
      Qed.

      Lemma lift_all q (Q : assignment -> Prop) C B s : Forall means q -> beside C B -> wfs C q -> const_assignment s ->
        (forall t t', (forall x, t x = t' x) -> Q t -> Q t') ->
        (exists t, const_assignment t /\ same_on B s t /\ Q (given t) /\ all_hold ext B (map fill q) t) <->
        (exists t, const_assignment t /\ same_on C (given s) t /\ Q t /\ all_hold ext C q t).
      Proof.
        intros Hq Hc Hw Hs HQ.
        rewrite <- (lift (fun t => Q t /\ all_hold ext C q t) C B s Hc Hs).
        - split; intros (t & H1 & H2 & H3 & H4); exists t; split; auto; split; auto; split; auto;
            now apply (means_all q Hq C B t).
        - intros t t' Ht Ht' E [H1 H2]. split; [exact (HQ t t' E H1)|exact (all_hold_pointwise C q t t' Hw Ht Ht' E H2)].
      Qed.

      Lemma possible_fill q C B s : Forall means q -> beside C B -> wfs C q -> const_assignment s ->
        (possible ext B (map fill q) s <-> possible ext C q (given s)).
      Proof.
        intros Hq Hc Hw Hs. pose proof (lift_all q (fun _ => True) C B s Hq Hc Hw Hs (fun _ _ _ I => I)) as E.
        unfold possible. split; intros (t & H1 & H2 & H3); [apply proj1 in E|apply proj2 in E];
          (destruct E as (t' & ? & ? & _ & ?); [exists t; auto|exists t'; auto]).
      Qed.

      Lemma number_fill q C B s n : Forall means q -> beside C B -> wfs C q -> const_assignment s ->
        (number ext B (map fill q) s n <-> number ext C q (given s) n).
      Proof.
        intros Hq Hc Hw Hs. unfold number. rewrite (fill_bindss q C B Hc Hw). set (xs := binds q).
        assert (M : forall (f g : list value -> list value) rows, NoDup rows ->
          (forall r, In r rows -> g (f r) = r) -> NoDup (map f rows)).
        { intros f g rows Hn Hg. apply NoDup_map_inv with (f := g).
          rewrite map_map, (map_ext_in _ (fun r => r)), map_id; auto. }
        split; intros (rows & H1 & H2 & H3).
        - exists (map (expand xs) rows). split; [|split].
          + apply (M _ (contract xs)); auto. intros r Hr. apply H3 in Hr as (t & _ & _ & _ & ->).
            now rewrite expand_map, contract_map, given_free_map.
          + now rewrite map_length.
          + intros row. rewrite in_map_iff.
            pose proof (lift_all q (fun t => row = map t xs) C B s Hq Hc Hw Hs) as E.
            transitivity (exists t, const_assignment t /\ same_on B s t /\ row = map (given t) xs /\
              all_hold ext B (map fill q) t); [|rewrite E].
            * split.
              -- intros (r & <- & Hr). apply H3 in Hr as (t & ? & ? & ? & ->). exists t.
                 rewrite expand_map. auto.
              -- intros (t & T1 & T2 & -> & T3). exists (map t (filter free xs)). rewrite expand_map.
                 split; auto. apply H3. exists t. auto.
            * split; intros (t & T1 & T2 & T3 & T4); exists t; auto.
            * intros t t' Et ->. now apply map_ext.
        - exists (map (contract xs) rows). split; [|split].
          + apply (M _ (expand xs)); auto. intros r Hr. apply H3 in Hr as (t & _ & Ht & _ & ->).
            rewrite contract_map, expand_map. apply map_ext. intros x. unfold given.
            destruct (bget x b) as [v|] eqn:E; auto. rewrite <- (Ht x).
            * unfold given. now rewrite E.
            * apply Hc. left. apply bget_In_keys. congruence.
          + now rewrite map_length.
          + intros row. rewrite in_map_iff.
            pose proof (lift_all q (fun t => row = map t (filter free xs)) C B s Hq Hc Hw Hs) as E.
            transitivity (exists t, const_assignment t /\ same_on C (given s) t /\ row = map t (filter free xs) /\
              all_hold ext C q t); [|rewrite <- E].
            * split.
              -- intros (r & <- & Hr). apply H3 in Hr as (t & ? & ? & ? & ->). exists t.
                 rewrite contract_map. auto.
              -- intros (t & T1 & T2 & -> & T3). exists (map t xs). rewrite contract_map.
                 split; auto. apply H3. exists t. auto.
            * split; intros (t & T1 & T2 & T3 & T4); exists t; rewrite given_free_map in *; auto.
            * intros t t' Et ->. now apply map_ext.
      Qed.

      Lemma fill_means f : means f.
      Proof.
        induction f as [a|t u|l t u|n q IH|q IH|alts IH|x range body IHr IHb|x q IH|c k q IH] using fol_ind';
          intros C B s Hc Hw Hs; cbn [fill].
        - cbn [holds fill_atom fa_pred fa_args]. now rewrite fill_insts.
        - cbn [holds]. now rewrite !fill_inst.
        - destruct l; cbn [holds]; now rewrite !fill_inst.
        - rewrite wf_not in Hw. destruct Hw as [_ Hw]. rewrite !holds_not, (possible_fill q C B); auto. tauto.
        - rewrite wf_some in Hw. destruct Hw as [_ Hw]. rewrite !holds_some, (possible_fill q C B); auto. tauto.
        - rewrite wf_or in Hw. rewrite !holds_or.
          assert (G : forall l, incl l alts -> (first_alt ext B (map (map fill) l) s <-> first_alt ext C l (given s))).
          { induction l as [|q l IHl]; intros Hi; [simpl; tauto|]. cbn [first_alt map].
            assert (Hq : In q alts) by (apply Hi; now left). destruct (Hw q Hq) as (_ & W & _).
            rewrite Forall_forall in IH. specialize (IH q Hq).
            rewrite (possible_fill q C B s IH Hc W Hs), (means_all q IH C B s Hc W Hs), IHl; [tauto|].
            intros y Hy. apply Hi. now right. }
          apply G. apply incl_refl.
        - rewrite wf_all in Hw. destruct Hw as (X1 & X2 & X3 & X4 & X5 & X6 & X7). rewrite !holds_all.
          pose proof (beside_free C B x Hc X1) as F. pose proof (beside_cons C B x Hc) as Hc'.
          assert (G : forall v, in_range ext B x (map fill range) s v <-> in_range ext C x range (given s) v).
          { intros v. unfold in_range. rewrite <- (lift_all range (fun t => t x = v) C B s IHr Hc X5 Hs).
            - split; intros (t & T1 & T2 & T3 & T4); exists t; rewrite given_free in *; auto.
            - intros t t' Et. now rewrite Et. }
          assert (G' : forall v,
            (exists t, const_assignment t /\ same_on B s t /\ t x = v /\ all_hold ext (x :: B) (map fill body) t) <->
            (exists t, const_assignment t /\ same_on C (given s) t /\ t x = v /\ all_hold ext (x :: C) body t)).
          { intros v. rewrite <- (lift (fun t => t x = v /\ all_hold ext (x :: C) body t) C B s Hc Hs).
            - split; intros (t & T1 & T2 & T3 & T4); exists t; rewrite given_free in *; auto;
                (split; [|split; [|split]]); auto; now apply (means_all body IHb (x :: C) (x :: B) t).
            - intros t t' Ht Ht' Et [T1 T2]. split; [now rewrite <- Et|exact (all_hold_pointwise (x :: C) body t t' X7 Ht Ht' Et T2)]. }
          rewrite (given_free s x F), G. split; intros [A1 A2]; split; auto; intros v Hv; apply G', A2, G, Hv.
        - rewrite wf_count in Hw. destruct Hw as (X1 & X2 & X3 & X4 & X5). rewrite !holds_count.
          rewrite (given_free s x (beside_free C B x Hc X1)).
          split; intros (n & N1 & N2); exists n; (split; [|auto]); now apply (number_fill q C B s n IH Hc X5 Hs).
        - rewrite wf_det in Hw. destruct Hw as (X4 & X5). rewrite !holds_det.
          split; intros (n & N1 & N2); exists n; (split; [|auto]); now apply (number_fill q C B s n IH Hc X5 Hs).
      Qed.
      Lemma fills_mean q C B s : beside C B -> wfs C q -> const_assignment s ->
        (all_hold ext B (map fill q) s <-> all_hold ext C q (given s)).
      Proof. apply means_all. apply Forall_forall. intros f _. apply fill_means. Qed.
    End Meaning.
  End Wf.
End Fill.
