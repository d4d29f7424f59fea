(** * Datalog: rules whose calls descend come to an end, endless calls do not *)

From Coq Require Import ZArith String List Bool Lia Arith.
From Verif Require Import Py PyFacts ReprProofs Effects EffectsFacts Solver SolverSpec
  SolverProofs SolverProofs2 MatchProofs Atoms AtomsFacts CoreModule InferenceModule
  TableModule DatalogSpec RecursionSpec DatalogProofs DatalogProofs2 DatalogThms.
Import ListNotations.
Local Open Scope string_scope.
Local Open Scope list_scope.

(** what is known of the arguments *)
Definition pat (r : binding) (args : list value) : call :=
  map (fun v => match v with VVar x => bget x r | _ => Some v end) args.

Lemma asked_pat r s K a : (forall v, In v (fa_args a) -> flat_arg v) ->
  (forall x, fvar x a -> (K x <-> bget x r <> None)) ->
  (forall x v, bget x r = Some v -> fvar x a -> s x = v) ->
  asked s K a (pat r (fa_args a)).
Proof.
  intros Hf HK Hs. unfold asked, pat, fvar in *. induction (fa_args a) as [|v l IH]; cbn [map]; constructor.
  - destruct v; auto. specialize (HK name (or_introl eq_refl)). destruct (bget name r) as [v|] eqn:E.
    + left. split; [apply HK; discriminate|]. f_equal. symmetry. apply (Hs _ _ E). now left.
    + right. split; [|reflexivity]. intros H. apply HK in H. congruence.
  - apply IH; intros; [apply Hf|apply HK|eapply Hs; eauto]; now right.
Qed.

Lemma asked_unique s K a c c' : asked s K a c -> asked s K a c' -> c = c'.
Proof.
  unfold asked. revert c c'. induction (fa_args a) as [|v l IH]; intros c c' H H'; inversion H as [|? o ? c1 Ho Hc]; inversion H' as [|? o' ? c1' Ho' Hc']; subst; auto.
  f_equal; [|now apply IH]. destruct v; try congruence. destruct Ho as [(? & ->)|(? & ->)], Ho' as [(? & ->)|(? & ->)]; auto; contradiction.
Qed.

(** the variables that [bind_head] gives a value *)
Lemma bind_head_given b x hargs : forall args rb rb', bget x rb = None ->
  length hargs = length args -> bind_head b hargs args rb = Some rb' ->
  (bget x rb' <> None -> exists i v, nth_error hargs i = Some (VVar x) /\ nth_error (pat b args) i = Some (Some v)).
Proof.
  intros args rb rb' Hx Hl H Hn.
  assert (D : (exists i v, nth_error hargs i = Some (VVar x) /\ nth_error (pat b args) i = Some (Some v)) \/
    (forall i, nth_error hargs i = Some (VVar x) -> exists y, nth_error args i = Some (VVar y) /\ bget y b = None)).
  { clear H Hn. revert args Hl. induction hargs as [|h hargs IH]; intros [|v args] Hl; simpl in Hl; try discriminate.
    - right. intros [|i] E; discriminate.
    - destruct (IH args ltac:(lia)) as [(i & u & E1 & E2)|H]; [left; exists (S i), u; auto|].
      assert (Dh : h = VVar x \/ h <> VVar x) by (destruct h; try (right; discriminate); destruct (string_dec name x) as [->|N]; [now left|right; congruence]).
      destruct Dh as [->|Nh].
      + destruct v as [| | | | |y| | | |]; try (left; exists 0; eexists; split; reflexivity).
        destruct (bget y b) as [u|] eqn:E; [left; exists 0, u; cbn; rewrite E; auto|].
        right. intros [|i] Ei; [exists y; auto|now apply H].
      + right. intros [|i] Ei; [cbn in Ei; congruence|now apply H]. }
  destruct D as [D|D]; [exact D|]. exfalso. apply Hn. eapply bind_head_keeps; eauto.
Qed.

Section Calls.
  Context {W : Type}.
  Variable L : lens W rulebase.
  Variable tables : W -> string -> option (list (list value)).
  Variable arity : string -> nat.
  Variable rules : list frule.
  Variable w : W.
  Hypothesis Htab : good_tables tables arity w.
  Hypothesis Hrules : lget L w = rulebase_of rules.
  Hypothesis Hflat : forall r, In r rules -> flat_rule arity r.

  Notation mods := (dl_mods L tables).
  Notation db := (db_of tables w).
  Notation good_result := (good_result tables rules w).
  Notation sv_sound := (sv_sound tables arity rules w).
  Notation sv_complete := (sv_complete tables arity rules w).

  Lemma good_result_nil b : const_binding b -> good_result [] b b.
  Proof.
    intros Hb. constructor; auto.
    - apply extends_refl.
    - intros x (a & [] & _).
    - intros a [].
  Qed.

  (** the binding with which the body of a rule is solved *)
  Lemma rule_binding fr args b rb : In fr rules -> const_binding b ->
    (forall v, In v args -> flat_arg v) -> length args = arity (fa_pred (fr_head fr)) ->
    bind_head b (fa_args (fr_head fr)) args (outer fr b) = Some rb ->
    const_binding rb /\
    (forall x, rule_var fr x -> (bget x rb <> None <-> given x (fr_head fr) (pat b args))) /\
    (forall s, (forall x v, bget x rb = Some v -> s x = v) -> head_fits s (fr_head fr) (pat b args)).
  Proof.
    intros Hin Hb Ha Hl Eh. pose proof (Hflat fr Hin) as Hf. destruct (proj1 Hf) as (Hup & Hl' & Hfa).
    assert (Hlen : length (fa_args (fr_head fr)) = length args) by congruence.
    destruct (bind_head_sound b Hb (fa_args (fr_head fr)) args (outer fr b) rb) as (Hrb & _ & Hok); auto.
    { now apply (outer_plain arity). }
    split; [exact Hrb|]. split.
    - intros x Hx. split.
      + intros Hn. eapply bind_head_given; eauto.
        destruct (outer_get arity fr b x Hf) as [[_ E]|[Hr _]]; auto. contradiction.
      + intros (i & v & E1 & E2). destruct (Forall2_nth _ _ _ Hok i _ E1) as (a & Ea & Hh).
        unfold pat in E2. rewrite nth_error_map, Ea in E2. cbn in E2. destruct Hh as [(y & -> & Hy)|Hh]; [rewrite Hy in E2; discriminate|].
        rewrite Hh. discriminate.
    - intros s Hs. unfold head_fits, pat. clear -Hok Hs Hfa. induction Hok as [|h a hl al Hh Hok IH]; cbn [map]; constructor.
      + intros v E. destruct Hh as [(y & -> & Hy)|Hh]; [cbn in E; congruence|].
        assert (Hv : bound_value b a = v) by (destruct a; cbn in *; try congruence; rewrite E; reflexivity).
        rewrite Hv in Hh. destruct (Hfa h (or_introl eq_refl)) as [(x & ->)|Hc]; [now apply Hs|].
        destruct h; cbn in *; try discriminate; congruence.
      + apply IH. intros v Hv. apply Hfa. now right.
  Qed.

  (** ** calls that descend *)
  Section Level.
    Variable made : string -> call -> Prop.
    Variable level : string -> call -> nat.
    Hypothesis Hlevel : forall p c p' c', made p c -> leads_to db rules p c p' c' -> made p' c' /\ level p' c' < level p c.
    Hypothesis Hknown : forall r a, In r rules -> In a (fr_body r) -> known tables rules w (fa_pred a).

    Definition below (k : nat) (q : list fatom) (b : binding) : Prop :=
      forall before a after r, q = before ++ a :: after -> good_result before b r ->
      made (fa_pred a) (pat r (fa_args a)) /\ level (fa_pred a) (pat r (fa_args a)) < k.

    Definition sv_ends (k : nat) (sv : solver_if W) : Prop := forall q b,
      q <> [] -> flat_atoms arity q -> const_binding b -> below k q b ->
      (forall a, In a q -> known tables rules w (fa_pred a)) ->
      exists l, sv_solve sv (VList (map atom_value q)) b w = (Ok (SList l), w).

    Lemma rule_ends k sv fr args b :
      sv_sound sv -> sv_ends k sv -> In fr rules -> const_binding b ->
      (forall v, In v args -> flat_arg v) -> length args = arity (fa_pred (fr_head fr)) ->
      made (fa_pred (fr_head fr)) (pat b args) -> level (fa_pred (fr_head fr)) (pat b args) <= k ->
      exists rs, solve_rule sv (to_rule fr) args b w = (Ok rs, w).
    Proof.
      intros Hsv Ht Hin Hb Ha Hl Hm Hk. pose proof (Hflat fr Hin) as Hf.
      rewrite (solve_rule_unfold arity) by assumption.
      destruct (bind_head b (fa_args (fr_head fr)) args (outer fr b)) as [rb|] eqn:Eh; eauto.
      destruct (rule_binding fr args b rb Hin Hb Ha Hl Eh) as (Hrb & Hgiven & Hfits).
      assert (exists sols, body_solutions sv fr rb w = (Ok sols, w)) as [sols Hs].
      { unfold body_solutions. destruct (fr_body fr) as [|a0 q0] eqn:Eb; [eexists; reflexivity|].
        rewrite <- Eb.
        destruct (Ht (fr_body fr) rb) as (l & Hs); auto.
        - rewrite Eb. discriminate.
        - apply Hf.
        - intros before a after r Eq [G1 G2 G3 G4 G5].
          assert (Hina : In a (fr_body fr)) by (rewrite Eq; apply in_or_app; right; now left).
          enough (Hlt : leads_to db rules (fa_pred (fr_head fr)) (pat b args) (fa_pred a) (pat r (fa_args a))).
          { destruct (Hlevel _ _ _ _ Hm Hlt). split; [assumption|lia]. }
          apply (leads db rules _ _ _ _ fr (asg r) before a after); auto.
          + now apply asg_const.
          + apply Hfits. intros x v Hx. unfold asg. now rewrite (G2 _ _ Hx).
          + apply asked_pat.
            * intros v Hv. now apply (proj2 Hf a Hina).
            * intros x Hx. rewrite <- Hgiven by (right; exists a; auto). split.
              -- intros [Hr|Hr]; [|now apply G3]. destruct (bget x rb) eqn:E; [|congruence]. rewrite (G2 _ _ E). discriminate.
              -- apply G4.
            * intros x v Hx _. unfold asg. now rewrite Hx.
        - intros a Ha'. now apply (Hknown fr).
        - exists l. erewrite bind_ok_intro by exact Hs. reflexivity. }
      fold (body_solutions sv fr rb). erewrite bind_ok_intro by exact Hs.
      destruct (head_rows _ _ _); eexists; reflexivity.
    Qed.

    Lemma atoms_end k sv : sv_sound sv -> sv_ends k sv -> forall q b,
      flat_atoms arity q -> const_binding b -> below (S k) q b ->
      (forall a, In a q -> known tables rules w (fa_pred a)) ->
      exists l, solve_atoms mods sv (map atom_value q) b w = (Ok (SList l), w).
    Proof.
      intros Hsv Ht. induction q as [|a rest IH]; intros b Hf Hb Hk Hkn.
      - eexists. reflexivity.
      - assert (Hfa : flat_atom arity a) by (apply Hf; now left).
        destruct (single_total_if L tables arity rules w Htab Hrules Hflat sv a b) as (l & Hl); auto.
        { apply Hkn; now left. }
        { intros fr Hfr Hp. apply (rule_ends k); auto.
          - apply Hfa.
          - rewrite Hp. apply Hfa.
          - rewrite Hp. apply (Hk [] a rest b eq_refl (good_result_nil b Hb)).
          - rewrite Hp. destruct (Hk [] a rest b eq_refl (good_result_nil b Hb)). lia. }
        destruct rest as [|a2 rest]; [exists l; exact Hl|].
        cbn [map]. rewrite solve_atoms_cons. erewrite bind_ok_intro by exact Hl.
        simpl sres_items. erewrite bind_ok_intro by reflexivity.
        apply (single_results L tables arity rules w Htab Hrules Hflat) in Hl as (_ & l' & [= <-] & A & _); auto.
        assert (G : forall bs acc, (forall b0, In b0 bs -> good_result [a] b b0) ->
           exists res, foldM (conj_step mods sv (map atom_value (a2 :: rest))) acc bs w = (Ok res, w)).
        { induction bs as [|b0 bs IHb]; intros acc Hbs; [eexists; reflexivity|].
          cbn [foldM]. destruct (IH b0) as (l0 & Hl0).
          - intros a' Ha'. apply Hf. now right.
          - apply (Hbs b0 (or_introl eq_refl)).
          - intros before a' after r Eq Hr. apply (Hk (a :: before) a' after r); [now rewrite Eq|].
            eapply good_result_cons; eauto. apply Hbs. now left.
          - intros a' Ha'. apply Hkn. now right.
          - erewrite bind_ok_intro.
            2:{ unfold conj_step. erewrite bind_ok_intro by exact Hl0. reflexivity. }
            apply IHb. intros; apply Hbs; now right. }
        destruct (G l []) as [res Hres]; [exact A|].
        erewrite bind_ok_intro by exact Hres. eexists; reflexivity.
    Qed.

    Lemma solver_ends n : sv_ends n (solver_at mods n).
    Proof.
      induction n as [|n IH]; intros q b Hne Hf Hb Hk Hkn.
      - destruct q as [|a q]; [congruence|]. destruct (Hk [] a q b eq_refl (good_result_nil b Hb)). lia.
      - simpl. apply (atoms_end n); auto. apply (solver_sound L tables arity rules w Htab Hrules Hflat).
    Qed.

    Theorem descending_ends n q b : flat_atoms arity q -> const_binding b ->
      (forall p c, begins db rules q b p c -> made p c /\ level p c <= n) ->
      (forall a, In a q -> known tables rules w (fa_pred a)) ->
      exists l, solve mods (S n) (VList (map atom_value q)) b w = (Ok (SList l), w).
    Proof.
      intros Hf Hb Hq Hkn. unfold solve. cbn [solver_at]. apply (atoms_end n); auto.
      - apply (solver_sound L tables arity rules w Htab Hrules Hflat).
      - apply solver_ends.
      - intros before a after r Eq [G1 G2 G3 G4 G5]. 
        enough (Hbeg : begins db rules q b (fa_pred a) (pat r (fa_args a))).
        { destruct (Hq _ _ Hbeg). split; [assumption|lia]. }
        assert (Hina : In a q) by (rewrite Eq; apply in_or_app; right; now left).
        apply (begin db rules _ _ _ _ (asg r) before a after); auto.
        + now apply asg_const.
        + intros x v Hx. unfold asg. now rewrite (G2 _ _ Hx).
        + apply asked_pat.
          * intros v Hv. now apply (Hf a Hina).
          * intros x Hx. split; [|apply G4]. intros [Hr|Hr]; [|now apply G3].
            destruct (bget x b) eqn:E; [|congruence]. rewrite (G2 _ _ E). discriminate.
          * intros x v Hx _. unfold asg. now rewrite Hx.
    Qed.
  End Level.

  (** ** calls without end *)
  Section Endless.
    Hypothesis Hrr : forall r, In r rules -> range_restricted r.
    (** calls each of which leads to another one of them *)
    Variable endless : string -> call -> Prop.
    Hypothesis Hend : forall p c, endless p c -> exists p' c', leads_to db rules p c p' c' /\ endless p' c'.

    (** solving the atoms before [a] finds the values of [s], and so [a] is asked for *)
    Lemma reaches sv before : sv_sound sv -> sv_complete sv -> forall a after b s res w',
      flat_atoms arity (before ++ a :: after) -> const_binding b -> const_assignment s -> agrees s b -> satisfies db rules s before ->
      solve_atoms mods sv (map atom_value (before ++ a :: after)) b w = (Ok res, w') ->
      exists r res1 w1, solve_single mods sv (atom_value a) r w = (Ok res1, w1) /\ const_binding r /\
        (forall x, bget x r <> None <-> bget x b <> None \/ fvars x before) /\ agrees s r.
    Proof.
      intros Hsv Hcv. induction before as [|a0 before IH]; intros a after b s res w' Hf Hb Hs Ha Hsat H.
      - exists b. cbn [app map] in H. destruct after as [|a2 after].
        + exists res, w'. split; [exact H|]. split; [exact Hb|]. split; [|exact Ha]. intros x. split; [auto|]. intros [Hx|(z & [] & _)]; exact Hx.
        + apply solve_atoms_cons_ok in H as (r1 & bs & w1 & result & H & _). exists r1, w1. split; [exact H|]. split; [exact Hb|]. split; [|exact Ha].
          intros x. split; [auto|]. intros [Hx|(z & [] & _)]; exact Hx.
      - cbn [app] in H, Hf. cbn [map] in H.
        assert (Hf0 : flat_atom arity a0) by (apply Hf; now left).
        assert (Hrest : exists a2 rest, before ++ a :: after = a2 :: rest) by (destruct before; eexists; eexists; reflexivity).
        destruct Hrest as (a2 & rest & Er). rewrite Er in H. cbn [map] in H.
        apply solve_atoms_cons_ok in H as (r1 & bs & w1 & result & H1 & H2 & H3 & _).
        apply (single_results L tables arity rules w Htab Hrules Hflat) in H1 as (-> & l & -> & Hg & Hc & _); auto.
        cbn in H2. inv_ret H2.
        destruct (Hc Hcv Hrr s Hs Ha) as (r0 & Hr0 & Hv0).
        { intros z [<-|[]]. apply Hsat. now left. }
        pose proof (Hg r0 Hr0) as [G1 G2 G3 G4 G5].
        assert (Hrun : exists rr w2, solve_atoms mods sv (map atom_value (a2 :: rest)) r0 w = (Ok rr, w2)).
        { clear -H3 Hr0 Hg Er Hf Hsv Hflat Hrules Htab. revert H3. generalize (@nil binding). induction bs as [|b0 bs IHb]; intros acc H; [destruct Hr0|].
          cbn [foldM] in H. apply bind_ok in H as (acc' & w3 & H & Hrest). apply conj_step_ok in H as (rr & rs & F1 & F2 & _).
          destruct Hr0 as [->|Hr0]; [eauto|].
          assert (w3 = w) as ->.
          { apply (atoms_results L tables arity rules w Htab Hrules Hflat sv Hsv (a2 :: rest)) in F1 as (-> & _); auto.
            - intros z Hz. apply Hf. right. now rewrite Er.
            - apply (Hg b0 (or_introl eq_refl)). }
          eapply IHb; eauto. intros r Hr. apply Hg. now right. }
        destruct Hrun as (rr & w2 & Hrun). rewrite <- Er in Hrun.
        destruct (IH a after r0 s rr w2) as (r & res1 & w1 & K1 & K2 & K3 & K4); auto.
        { intros z Hz. apply Hf. now right. }
        { intros x v Hx. destruct (G4 x) as [Hbx|Hbx]; [congruence| |].
          - rewrite (Hv0 x (or_introl Hbx)) in Hx. congruence.
          - rewrite (Hv0 x (or_intror Hbx)) in Hx. congruence. }
        { intros z Hz. apply Hsat. now right. }
        exists r, res1, w1. split; [exact K1|]. split; [exact K2|]. split; [|exact K4]. intros x. rewrite K3. split.
        + intros [Hx|(z & Hz & Hx)]; [|right; exists z; split; [now right|exact Hx]].
          destruct (G4 x Hx) as [?|(z & [<-|[]] & Hz)]; auto. right. exists a0. split; [now left|exact Hz].
        + intros [Hx|(z & [<-|Hz] & Hx)].
          * left. destruct (bget x b) eqn:E; [|congruence]. rewrite (G2 _ _ E). discriminate.
          * left. apply G3. exists a0. split; [now left|exact Hx].
          * right. now exists z.
    Qed.

    Lemma endless_single n : forall p args b res w', flat_atom arity (mkAtom p args) -> const_binding b ->
      endless p (pat b args) -> solve_single mods (solver_at mods n) (atom_value (mkAtom p args)) b w <> (Ok res, w').
    Proof.
      induction n as [|n IH]; intros p args b res w' Hfl Hb He H; destruct Hfl as (Hup & Hl & Hfa); cbn in Hup, Hl, Hfa.
      all: destruct (Hend p (pat b args) He) as (p' & c' & Hlead & He'); destruct Hlead as [r s before a after Hin Hp Hs Hfit Hbody Hsat Hpa Hask]; subst p.
      all: apply (single_runs_rule L tables arity rules w Hrules Hflat _ r) in H as (x & w3 & H); auto;
        [|apply (solver_sound L tables arity rules w Htab Hrules Hflat)].
      all: pose proof (Hflat r Hin) as Hf; destruct (proj1 Hf) as (_ & Hlr & Hfr);
        assert (Hlen : length (fa_args (fr_head r)) = length args) by congruence.
      all: rewrite (solve_rule_unfold arity) in H by assumption;
        (destruct (bind_head_complete b Hb s (fa_args (fr_head r)) Hs args (outer r b)) as (rb & Eh & Hag1 & Hag2); auto;
         [now apply (outer_plain arity)| | |]).
      1,4: unfold head_fits, pat in Hfit; clear -Hfit Hs Hfa Hfr Hlen; revert args Hfit Hfa Hlen; induction (fa_args (fr_head r)) as [|h hl IHh];
        intros [|v args] Hfit Hfa Hlen; simpl in Hlen; try discriminate; [constructor|]; cbn [map] in Hfit; inversion Hfit as [|? ? ? ? Hv Hfit']; subst;
        constructor; [|apply IHh; auto; intros u Hu; [apply Hfr|apply Hfa]; now right].
      1,2: split; [destruct (Hfr h (or_introl eq_refl)) as [(y & ->)|Hc]; [apply Hs|destruct h; try discriminate Hc; exact Hc]|];
        destruct v; try (now apply Hv); destruct (bget name b); [now apply Hv|exact I].
      1,3: intros y Hy v Hv; destruct (outer_get arity r b y Hf) as [[_ E]|[Hn _]]; [congruence|exfalso; apply Hn; now left].
      all: rewrite Eh in H; destruct (rule_binding r args b rb Hin Hb Hfa Hl Eh) as (Hrb & Hgiven & Hfits);
        rewrite Hbody in H; assert (Hne : exists a1 l1, before ++ a :: after = a1 :: l1) by (destruct before; eexists; eexists; reflexivity);
        destruct Hne as (a1 & l1 & Hne); rewrite Hne in H; apply bind_ok in H as (sols & w4 & H & _); apply bind_ok in H as (rr & w5 & H & _).
      - discriminate.
      - rewrite <- Hne in H. cbn [sv_solve solver_at] in H.
        (* the values of the rule, with those of the caller elsewhere *)
        set (s' := fun y => match bget y rb with Some v => v | None => s y end).
        assert (Hs' : const_assignment s').
        { intros y. unfold s'. destruct (bget y rb) eqn:Ey; [exact (Hrb y _ Ey)|apply Hs]. }
        assert (Hss : forall y, rule_var r y -> s' y = s y).
        { intros y Hy. unfold s'. destruct (bget y rb) eqn:Ey; auto.
          destruct (in_var_dec y (fa_args (fr_head r))) as [Hi|Hi]; [symmetry; now apply Hag1|].
          rewrite Hag2 in Ey by exact Hi. destruct (outer_get arity r b y Hf) as [[_ E]|[Hn _]]; [congruence|contradiction]. }
        assert (Hsame : forall z, In z (fr_body r) -> map (inst s') (fa_args z) = map (inst s) (fa_args z)).
        { intros z Hz. apply map_ext_in. intros v Hv. destruct v; auto. cbn. apply Hss. right. now exists z. }
        assert (Hina : In a (fr_body r)) by (rewrite Hbody; apply in_or_app; right; now left).
        destruct (reaches (solver_at mods n) before) with (a := a) (after := after) (b := rb) (s := s') (res := rr) (w' := w5) as (r' & res1 & w1 & K1 & K2 & K3 & K4); auto.
        { apply (solver_sound L tables arity rules w Htab Hrules Hflat). }
        { apply (solver_complete L tables arity rules w Htab Hrules Hflat). exact Hrr. }
        { rewrite <- Hbody. apply Hf. }
        { intros y v Ey. unfold s'. now rewrite Ey. }
        { intros z Hz. rewrite Hsame by (rewrite Hbody; apply in_or_app; now left). now apply Hsat. }
        destruct a as [pa aargs]. cbn in Hpa. subst pa.
        apply (IH p' aargs r' res1 w1); auto.
        { apply (proj2 Hf). exact Hina. }
        assert (Ec : pat r' aargs = c'); [|now rewrite Ec].
        apply (asked_unique s (fun y => given y (fr_head r) (pat b args) \/ fvars y before) (mkAtom p' aargs)); [|exact Hask].
        apply asked_pat.
        + intros v Hv. now apply (proj2 Hf (mkAtom p' aargs) Hina).
        + intros y Hy. rewrite K3, Hgiven by (right; exists (mkAtom p' aargs); auto). reflexivity.
        + intros y v Ey Hy. rewrite <- Hss by (right; exists (mkAtom p' aargs); auto). now apply K4.
    Qed.

    Theorem endless_never_ends q b p c : flat_atoms arity q -> const_binding b ->
      begins db rules q b p c -> endless p c ->
      forall n res w', solve mods n (VList (map atom_value q)) b w <> (Ok res, w').
    Proof.
      intros Hf Hb [s before a after Eq Hs Ha Hsat Hpa Hask] He n res w' H. destruct n as [|n]; [discriminate|].
      unfold solve in H. cbn [sv_solve solver_at] in H. rewrite Eq in H, Hf.
      assert (Hfa : flat_atom arity a) by (apply Hf; apply in_or_app; right; now left).
      destruct (reaches (solver_at mods n) before) with (a := a) (after := after) (b := b) (s := s) (res := res) (w' := w') as (r' & res1 & w1 & K1 & K2 & K3 & K4); auto.
      { apply (solver_sound L tables arity rules w Htab Hrules Hflat). }
      { apply (solver_complete L tables arity rules w Htab Hrules Hflat). exact Hrr. }
      destruct a as [pa aargs]. cbn in Hpa. subst pa.
      apply (endless_single n p aargs r' res1 w1); auto.
      assert (Ec : pat r' aargs = c); [|now rewrite Ec].
      apply (asked_unique s (fun y => bget y b <> None \/ fvars y before) (mkAtom p aargs)); [|exact Hask].
      apply asked_pat.
      + intros v Hv. now apply Hfa.
      + intros y Hy. rewrite K3. reflexivity.
      + intros y v Ey _. now apply K4.
    Qed.
  End Endless.
End Calls.
