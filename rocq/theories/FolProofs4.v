(** * First-order queries: evaluation ends, and hierarchical rules have one meaning *)

From Coq Require Import ZArith String List Bool Lia Arith.
From Verif Require Import Py PyFacts ReprProofs Effects EffectsFacts Solver SolverSpec
  SolverProofs SolverProofs2 MatchProofs Atoms AtomsFacts CoreModule CoreSpec CoreProofs CoreProofs2 CoreProofs3
  InferenceModule TableModule DatalogSpec DatalogProofs DatalogProofs2 FolSpec FolProofs FolProofs2 FolProofs3 PropCore.
Import ListNotations.
Local Open Scope nat_scope.
Local Open Scope string_scope.
Local Open Scope list_scope.

(** ** values *)

Lemma lts_comparable l : Forall (fun a => forall c, plain a = true -> plain c = true ->
    comparable a c -> py_lt a c <> None) l ->
  forall m, forallb plain l = true -> forallb plain m = true ->
  comparable_seq l m -> lts l m <> None.
Proof.
  induction 1 as [|x l Hx Hl IH]; intros [|y m] Pl Pm Hc; simpl; try discriminate.
  simpl in Pl, Pm. apply andb_true_iff in Pl as [Px Pl]. apply andb_true_iff in Pm as [Py Pm].
  destruct (py_eq x y) eqn:E.
  - apply py_eq_plain in E; auto. subst y. apply IH; auto. inversion Hc; subst; auto. congruence.
  - apply Hx; auto. inversion Hc; subst; auto. rewrite py_eq_refl in E. discriminate.
Qed.

Lemma comparable_lt a : forall c, plain a = true -> plain c = true -> comparable a c -> py_lt a c <> None.
Proof.
  induction a using value_ind'; intros c Pa Pc Hc; try discriminate; inversion Hc; subst; try discriminate.
  - change (lts l m <> None). eapply lts_comparable; eauto.
  - change (lts l m <> None). eapply lts_comparable; eauto.
Qed.

Lemma comparable_sym a : forall c, comparable a c -> comparable c a.
Proof.
  assert (Hseq : forall l, Forall (fun a => forall c, comparable a c -> comparable c a) l ->
    forall m, comparable_seq l m -> comparable_seq m l).
  { induction 1 as [|x l Hx Hl IH]; intros m Hm; [constructor|]. inversion Hm; subst.
    - constructor.
    - apply cs_first; auto.
    - apply cs_rest; auto. }
  induction a using value_ind'; intros c Hc; inversion Hc; subst; constructor; auto.
Qed.

Lemma no_lists_hashable v : no_lists v = true -> hashable v = true.
Proof.
  induction v using value_ind'; intros Hv; try discriminate; auto. simpl in *.
  rewrite forallb_forall in *. rewrite Forall_forall in H. intros x Hx. apply H; auto.
Qed.

(** ** the program *)

Section Ext.
  (** truth depends only on the predicates that occur *)
  Definition same_ext (ps : list string) (e1 e2 : string -> list value -> Prop) : Prop :=
    forall p t, In p ps -> (e1 p t <-> e2 p t).

  Lemma same_ext_incl ps qs e1 e2 : incl ps qs -> same_ext qs e1 e2 -> same_ext ps e1 e2.
  Proof. intros Hi Hs p t Hp. apply Hs. auto. Qed.

  Definition moved (f : fol) : Prop := forall e1 e2 B s, same_ext (fol_preds f) e1 e2 ->
    (holds e1 B f s <-> holds e2 B f s).

  Lemma all_moved q : Forall moved q -> forall e1 e2 B s, same_ext (preds q) e1 e2 ->
    (all_hold e1 B q s <-> all_hold e2 B q s).
  Proof.
    induction 1 as [|f q Hf Hq IH]; intros e1 e2 B s Hs; [reflexivity|]. simpl.
    rewrite (Hf e1 e2), (IH e1 e2); [reflexivity| |];
      (eapply same_ext_incl; [|exact Hs]); unfold preds; simpl; [apply incl_appr|apply incl_appl]; apply incl_refl.
  Qed.

  Lemma possible_moved q : Forall moved q -> forall e1 e2 B s, same_ext (preds q) e1 e2 ->
    (possible e1 B q s <-> possible e2 B q s).
  Proof.
    intros Hq e1 e2 B s Hs. unfold possible.
    split; intros (s' & H1 & H2 & H3); exists s'; split; auto; split; auto;
      apply (all_moved q Hq e1 e2 B s' Hs); auto.
  Qed.

  Lemma number_moved q : Forall moved q -> forall e1 e2 B s n, same_ext (preds q) e1 e2 ->
    (number e1 B q s n <-> number e2 B q s n).
  Proof.
    intros Hq e1 e2 B s n Hs. unfold number.
    split; intros (rows & H1 & H2 & H3); exists rows; split; auto; split; auto; intros row; rewrite H3;
      split; intros (s' & K1 & K2 & K3 & K4); exists s'; repeat (split; auto);
      apply (all_moved q Hq e1 e2 B s' Hs); auto.
  Qed.

  Lemma range_moved x q : Forall moved q -> forall e1 e2 B s v, same_ext (preds q) e1 e2 ->
    (in_range e1 B x q s v <-> in_range e2 B x q s v).
  Proof.
    intros Hq e1 e2 B s v Hs. unfold in_range.
    split; intros (s' & K1 & K2 & K3 & K4); exists s'; repeat (split; auto);
      apply (all_moved q Hq e1 e2 B s' Hs); auto.
  Qed.

  Lemma holds_moved f : moved f.
  Proof.
    induction f as [a|t u|l t u|n q IH|q IH|alts IH|x range body IHr IHb|x q IH|c k q IH] using fol_ind';
      intros e1 e2 B s Hs.
    - simpl. apply Hs. now left.
    - reflexivity.
    - reflexivity.
    - rewrite !holds_not. now rewrite (possible_moved q IH e1 e2).
    - rewrite !holds_some. now rewrite (possible_moved q IH e1 e2).
    - rewrite !holds_or. revert Hs. induction IH as [|q alts Hq Ha IHa]; intros Hs; [reflexivity|].
      cbn [first_alt].
      assert (Hs1 : same_ext (preds q) e1 e2).
      { eapply same_ext_incl; [|exact Hs]. cbn [fol_preds flat_map]. apply incl_appl, incl_refl. }
      rewrite (all_moved q Hq e1 e2 B s Hs1), (possible_moved q Hq e1 e2 B s Hs1), IHa; [reflexivity|].
      eapply same_ext_incl; [|exact Hs]. cbn [fol_preds flat_map]. apply incl_appr, incl_refl.
    - rewrite !holds_all.
      assert (H1 : same_ext (preds range) e1 e2).
      { eapply same_ext_incl; [|exact Hs]. cbn [fol_preds]. apply incl_appl, incl_refl. }
      assert (H2 : same_ext (preds body) e1 e2).
      { eapply same_ext_incl; [|exact Hs]. cbn [fol_preds]. apply incl_appr, incl_refl. }
      rewrite (range_moved x range IHr e1 e2 B s (s x) H1).
      split; intros [A1 A2]; split; auto; intros v Hv.
      + destruct (A2 v) as (s' & K1 & K2 & K3 & K4); [now apply (range_moved x range IHr e1 e2)|].
        exists s'. repeat (split; auto). now apply (all_moved body IHb e1 e2 _ _ H2).
      + destruct (A2 v) as (s' & K1 & K2 & K3 & K4); [now apply (range_moved x range IHr e1 e2)|].
        exists s'. repeat (split; auto). now apply (all_moved body IHb e1 e2 _ _ H2).
    - rewrite !holds_count. split; intros (n & Hn & Hx); exists n; split; auto;
        now apply (number_moved q IH e1 e2).
    - rewrite !holds_det. split; intros (n & Hn & Hx); exists n; split; auto;
        now apply (number_moved q IH e1 e2).
  Qed.

  Lemma all_hold_moved q e1 e2 B s : same_ext (preds q) e1 e2 -> (all_hold e1 B q s <-> all_hold e2 B q s).
  Proof. apply all_moved. apply Forall_forall. intros f _. apply holds_moved. Qed.

  Variable db : string -> list (list value).
  Variable rules : list folrule.
  Variable rank : string -> nat.
  Hypothesis Hrank : hierarchical rank rules.

  (** one round of applying the rules *)
  Definition next (e : string -> list value -> Prop) (p : string) (t : list value) : Prop :=
    In t (db p) \/
    exists r s, In r rules /\ const_assignment s /\ all_hold e [] (rl_body r) s /\
      fa_pred (rl_head r) = p /\ t = map (inst s) (fa_args (rl_head r)).
  Fixpoint rounds (n : nat) : string -> list value -> Prop :=
    match n with O => fun _ _ => False | S n' => next (rounds n') end.
  Definition meaning (p : string) : list value -> Prop := rounds (S (rank p)) p.

  Lemma next_same e1 e2 p t :
    (forall p' t', rank p' < rank p -> (e1 p' t' <-> e2 p' t')) -> (next e1 p t <-> next e2 p t).
  Proof.
    intros He. unfold next.
    assert (Hs : forall r, In r rules -> fa_pred (rl_head r) = p -> same_ext (preds (rl_body r)) e1 e2).
    { intros r Hr Hp p' t' Hp'. apply He. rewrite <- Hp. now apply Hrank. }
    split; (intros [Hd|(r & s & H1 & H2 & H3 & H4 & H5)]; [now left|right]); exists r, s; repeat (split; auto);
      (apply (all_hold_moved _ e1 e2); auto).
  Qed.

  Lemma rounds_stable : forall k n m p t, rank p < k -> rank p < n -> rank p < m ->
    (rounds n p t <-> rounds m p t).
  Proof.
    induction k as [|k IH]; intros n m p t Hk Hn Hm; [lia|].
    destruct n as [|n]; [lia|]. destruct m as [|m]; [lia|]. simpl. apply next_same.
    intros p' t' Hp'. apply IH; lia.
  Qed.

  Lemma meaning_completed : completed db rules meaning.
  Proof.
    intros p t. unfold meaning at 1. simpl. change (next (rounds (rank p)) p t <-> next meaning p t).
    apply next_same. intros p' t' Hp'. unfold meaning. apply (rounds_stable (S (rank p'))); lia.
  Qed.

  Lemma completed_unique e1 e2 : completed db rules e1 -> completed db rules e2 ->
    forall p t, e1 p t <-> e2 p t.
  Proof.
    intros H1 H2 p. remember (rank p) as k eqn:Ek. revert p Ek.
    induction k as [k IH] using lt_wf_ind. intros p -> t.
    rewrite (H1 p t), (H2 p t). change (next e1 p t <-> next e2 p t).
    apply next_same. intros p' t' Hp'. eapply IH; eauto.
  Qed.
End Ext.

(** ** safety *)

Section SafeFacts.
  Variable ext : string -> list value -> Prop.
  Notation safe := (safe ext).
  Notation all_safe := (all_safe ext).

  Lemma safe_or B alts s : safe B (FOr alts) s <-> forall q, In q alts -> all_safe B q s.
  Proof.
    simpl. induction alts as [|q alts IH]; simpl.
    - split; [intros _ q []|auto].
    - split.
      + intros [A1 A2] q' [<-|Hq]; auto. now apply IH.
      + intros Ha. split; [exact (Ha q (or_introl eq_refl))|]. apply IH. auto.
  Qed.

  Lemma safe_all B x range body s : safe B (FAll x range body) s =
    (all_safe B range s /\
     forall s', const_assignment s' -> same_on B s s' -> in_range ext B x range s (s' x) ->
       no_lists (s' x) = true /\ all_safe (x :: B) body s').
  Proof. reflexivity. Qed.

  Variable good_atom : fatom -> Prop.
  Variable H : list string.
  Notation wf := (well_formed good_atom).
  Notation wfs := (wfs good_atom).

  Definition kept_safe (f : fol) : Prop := forall B B' s, wf H B f -> incl B B' ->
    near H (fol_vars f) B B' -> const_assignment s -> safe B f s -> safe B' f s.

  Lemma same_on_incl B B' s s' : incl B B' -> same_on B' s s' -> same_on B s s'.
  Proof. intros Hi Hs x Hx. auto. Qed.

  Lemma all_kept q : Forall kept_safe q -> forall B B' s, wfs H B q -> incl B B' ->
    near H (vars q) B B' -> const_assignment s -> all_safe B q s -> all_safe B' q s.
  Proof.
    induction 1 as [|f q Hf Hq IH]; intros B B' s Hw Hi Hn Hs; [auto|].
    destruct Hw as [Hw1 Hw2]. simpl.
    assert (N1 : near H (fol_vars f) B B').
    { eapply near_incl; [|exact Hn]. unfold vars. simpl. apply incl_appl, incl_refl. }
    assert (N2 : near H (vars q) B B').
    { eapply near_incl; [|exact Hn]. unfold vars. simpl. apply incl_appr, incl_refl. }
    intros [A1 A2]. split; [eapply Hf; eauto|].
    intros s' Hs' Hsame Hh. apply (IH (fol_binds f ++ B)); auto.
    - apply incl_app; [apply incl_appl, incl_refl|apply incl_appr; auto].
    - now apply near_more.
    - apply A2; auto; [eapply same_on_incl; eauto|].
      apply (holds_insensitive ext good_atom H f B B' s'); auto.
  Qed.

  Lemma safe_near f : kept_safe f.
  Proof.
    induction f as [a|t u|l t u|n q IH|q IH|alts IH|x range body IHr IHb|x q IH|c k q IH] using fol_ind';
      intros B B' s Hw Hi Hn Hs Hf; auto.
    - rewrite wf_not in Hw. eapply (all_kept q IH B B'); eauto. apply Hw.
    - rewrite wf_some in Hw. eapply (all_kept q IH B B'); eauto. apply Hw.
    - rewrite safe_or in *. rewrite wf_or in Hw. intros q Hq. rewrite Forall_forall in IH.
      eapply (all_kept q (IH q Hq) B B'); eauto; [apply (Hw q Hq)|].
      eapply near_incl; [|exact Hn]. intros y Hy. simpl. apply in_flat_map. eauto.
    - rewrite safe_all in *. rewrite wf_all in Hw. destruct Hw as (A1 & A2 & A3 & A4 & A5 & A6 & A7).
      destruct Hf as [F1 F2].
      assert (Nr : near H (vars range) B B').
      { eapply near_incl; [|exact Hn]. simpl. intros y Hy. right. apply in_or_app. auto. }
      assert (Nb : near H (vars body) (x :: B) (x :: B')).
      { apply (near_more H _ [x]). eapply near_incl; [|exact Hn]. simpl. intros y Hy. right. apply in_or_app. auto. }
      split; [eapply (all_kept range IHr B B'); eauto|].
      intros s' Hs' Hsame (s2 & K1 & K2 & K3 & K4).
      destruct (F2 s') as [G1 G2]; auto.
      + eapply same_on_incl; eauto.
      + exists s2. split; auto. split; [eapply same_on_incl; eauto|]. split; auto.
        apply (all_hold_near ext good_atom H range B B' s2); auto.
      + split; auto. eapply (all_kept body IHb (x :: B) (x :: B')); eauto.
        intros y [<-|Hy]; [now left|right; auto].
    - rewrite wf_count in Hw. eapply (all_kept q IH B B'); eauto; [apply Hw|].
      eapply near_incl; [|exact Hn]. simpl. intros y Hy. now right.
    - rewrite wf_det in Hw. eapply (all_kept q IH B B'); eauto. apply Hw.
  Qed.

  Lemma all_safe_near q B B' s : wfs H B q -> incl B B' -> near H (vars q) B B' -> const_assignment s ->
    all_safe B q s -> all_safe B' q s.
  Proof. apply all_kept. apply Forall_forall. intros f _. apply safe_near. Qed.
End SafeFacts.

(** ** evaluation ends *)

Lemma list_max_in l x : In x l -> x <= list_max l.
Proof.
  induction l as [|y l IH]; simpl; [intros []|]. intros [->|Hx]; [lia|]. specialize (IH Hx). lia.
Qed.

Section Total.
  Context {W : Type}.
  Variable L : lens W rulebase.
  Variable tables : W -> string -> option (list (list value)).
  Variable arity : string -> nat.
  Variable rules : list folrule.
  Variable w : W.
  Variable ext : string -> list value -> Prop.
  Variable rank : string -> nat.
  Variable D : nat.

  Hypothesis Htab : good_tables tables arity w.
  Hypothesis Hnames : forall p, tables w p <> None -> user_pred p.
  Hypothesis Hrules : lget L w = stored_rules rules.
  Hypothesis Hgood : forall r, In r rules -> good_rule (flat_atom arity) r.
  Hypothesis Hext : completed (db_of tables w) rules ext.
  Hypothesis Hrank : hierarchical rank rules.
  Hypothesis Hdepth : forall r, In r rules -> depth (rl_body r) <= D.
  Hypothesis Hsafe : forall r s, In r rules -> const_assignment s -> all_safe ext [] (rl_body r) s.

  (** there is a table or a rule for the predicate *)
  Definition has_relation (p : string) : Prop :=
    tables w p <> None \/ exists r, In r rules /\ fa_pred (rl_head r) = p.
  Hypothesis Hknown : forall r p, In r rules -> In p (preds (rl_body r)) -> has_relation p.

  Notation mods := (dl_mods L tables).
  Notation GA := (flat_atom arity).

  Let Hexact n := fol_exact L tables arity rules w ext Htab Hnames Hrules Hgood Hext n.

  Definition sv_ends (k d : nat) (sv : solver_if W) : Prop := forall q b,
    wfs GA [] (keys b) q -> const_binding b ->
    (forall s, const_assignment s -> agrees s b -> all_safe ext (keys b) q s) ->
    depth q <= d -> (forall p, In p (preds q) -> rank p < k /\ has_relation p) ->
    exists r, sv_solve sv (VList (map fol_value q)) b w = (Ok r, w).

  Section Step.
    Variables k d n : nat.
    Notation sv := (solver_at mods n).
    (** nested queries *)
    Hypothesis Hnest : forall d', d' < d -> sv_ends k d' sv.
    (** rule bodies *)
    Hypothesis Hbody : forall k', k' < k -> sv_ends k' D sv.

    Lemma rule_ends fr args b :
      In fr rules -> const_binding b -> (forall v, In v args -> flat_arg v) ->
      length args = arity (fa_pred (rl_head fr)) -> rank (fa_pred (rl_head fr)) < k ->
      exists rs, solve_rule sv (stored_rule fr) args b w = (Ok rs, w).
    Proof.
      intros Hin Hb Ha Hl Hk. destruct (Hgood fr Hin) as ((Hup & Hl' & Hfa) & Hw & Hi).
      rewrite fol_rule_unfold.
      destruct (bind_head b (fa_args (rl_head fr)) args (fol_outer fr b)) as [rb|] eqn:Eh; eauto.
      assert (Hout : plain_binding (fol_outer fr b)) by now apply fol_outer_plain.
      destruct (bind_head_sound b Hb (fa_args (rl_head fr)) args (fol_outer fr b) rb) as (Hrb & _); auto.
      { congruence. }
      pose proof (rule_near rules fr b args rb Hin Eh) as Hnear.
      assert (exists sols, (match rl_body fr with
              | [] => ret [rb]
              | _ :: _ => bind (sv_solve sv (VList (map fol_value (rl_body fr))) rb) (fun rr => sres_items rr)
              end) w = (Ok sols, w)) as [sols Hs].
      { destruct (rl_body fr) as [|a0 q0] eqn:Eb; [eexists; reflexivity|]. rewrite <- Eb in *.
        destruct (Hbody (rank (fa_pred (rl_head fr))) Hk (rl_body fr) rb) as (r & Hr); auto.
        - eapply wfs_near; eauto.
        - intros s Hs Hag. eapply (all_safe_near ext GA (arg_vars (fa_args (rl_head fr))) _ [] (keys rb)); auto.
          intros x [].
        - intros p Hp. split; [now apply Hrank|eapply Hknown; eauto].
        - destruct (Hexact n (rl_body fr) rb r w) as (_ & l & -> & _); auto.
          { eapply wfs_near; eauto. }
          exists l. erewrite bind_ok_intro by exact Hr. reflexivity. }
      erewrite bind_ok_intro by exact Hs.
      destruct (head_rows _ _ _); eexists; reflexivity.
    Qed.

    Lemma atom_ends a b : flat_atom arity a -> const_binding b ->
      rank (fa_pred a) < k -> has_relation (fa_pred a) ->
      exists r, solve_single mods sv (atom_value a) b w = (Ok r, w).
    Proof.
      intros Hfl Hb Hk Hkn. pose proof Hfl as (Hup & Hl & Hfa).
      destruct a as [p args]. simpl in *.
      unfold solve_single. erewrite bind_ok_intro by reflexivity. simpl.
      destruct (String.eqb_spec p DISJUNCTION) as [E|_]; [now destruct Hup as (_ & ? & _)|].
      unfold solve_relation.
      pose proof (find_fol L tables rules w Hrules p Hup) as Hfu.
      assert (Hq : forall rel, In rel (find_relations mods w p) ->
        exists rows, r_query rel sv (db_values b args) (mkCtx (r_pred rel) (r_cols rel) args b) w
          = (Ok (QRows rows), w) /\ good_rows (length args) rows).
      { intros rel Hr. rewrite Hfu in Hr. apply in_app_or in Hr as [Hr|Hr].
        - destruct (rules_get p (stored_rules rules)) as [rs|] eqn:Eg; [|destruct Hr]. destruct Hr as [<-|[]].
          simpl.
          assert (exists out, handle_rule L sv (db_values b args) (mkCtx p [] args b) w = (Ok out, w)) as [out Ho].
          { unfold handle_rule, get. erewrite bind_ok_intro by reflexivity. simpl. rewrite Hrules, Eg.
            pose proof (stored_rules_get rules p rs Eg) as Hrs.
            assert (G : forall rl acc,
              (forall r, In r rl -> exists fr, In fr rules /\ fa_pred (rl_head fr) = p /\ r = stored_rule fr) ->
              exists res, foldM (fun (acc : list (list value)) (r : rule) =>
                 bind (solve_rule sv r args b) (fun x => ret (acc ++ x))) acc rl w = (Ok res, w)).
            { induction rl as [|r rl IHr]; intros acc Hrl; [eexists; reflexivity|].
              destruct (Hrl r (or_introl eq_refl)) as (fr & Hfr & Hp & ->).
              destruct (rule_ends fr args b) as (x & Hx); auto; try (now rewrite Hp).
              cbn [foldM]. erewrite bind_ok_intro.
              2:{ erewrite bind_ok_intro by exact Hx. reflexivity. }
              apply IHr. intros; apply Hrl; now right. }
            destruct (G rs []) as [res Hres]; [intros; apply Hrs; auto|].
            erewrite bind_ok_intro by exact Hres. eexists; reflexivity. }
          pose proof Ho as Ho'.
          apply (fol_handle_exact L tables arity rules w ext Hrules Hgood Hext)
            in Ho' as (_ & rows & -> & Hs & _); auto.
          eexists. split; [exact Ho|]. intros x Hx. apply in_map_iff in Hx as (row & <- & Hrow).
          destruct (Hs row Hrow) as [_ Hag]. exists row. split; auto.
          split; [symmetry; eapply Forall2_len; eauto|].
          apply plain_data. simpl. eapply row_agrees_plain; eauto.
        - destruct (tables w p) as [rows|] eqn:Et; [|destruct Hr]. destruct Hr as [<-|[]]. simpl.
          unfold table_query, get. erewrite bind_ok_intro by reflexivity. rewrite Et.
          eexists. split; [reflexivity|]. intros x Hx. apply in_map_iff in Hx as (row & <- & Hrow).
          apply filter_In in Hrow as [Hrow _]. destruct (Htab p rows Et row Hrow) as [Hlen Hc].
          exists row. split; auto. split; [congruence|]. apply plain_data. exact Hc. }
      assert (Hne : find_relations mods w p <> []).
      { rewrite Hfu. destruct Hkn as [Hkn|(r & Hr & <-)].
        - destruct (tables w p); [|congruence]. intros F. now apply app_eq_nil in F as [_ F].
        - destruct (stored_rules_has rules r Hr) as [rs ->]. discriminate. }
      remember (find_relations mods w p) as rels eqn:Er.
      assert (Hc : forall rels acc,
        (forall rel, In rel rels -> exists rows,
          r_query rel sv (db_values b args) (mkCtx (r_pred rel) (r_cols rel) args b) w
          = (Ok (QRows rows), w) /\ good_rows (length args) rows) ->
        good_rows (length args) acc -> forall many,
        exists rows, collect_rows sv many rels (db_values b args) args b acc w = (Ok (QRows rows), w) /\
          good_rows (length args) rows).
      { clear. induction rels as [|rel rels IH]; intros acc Hq Hg many; [eexists; split; [reflexivity|auto]|].
        destruct (Hq rel (or_introl eq_refl)) as (rows & Hrows & Hgr).
        cbn [collect_rows]. erewrite bind_ok_intro by exact Hrows. apply IH; auto.
        - intros; apply Hq; now right.
        - intros x Hx. apply fold_add_row_incl in Hx as [|]; auto. }
      destruct (Hc rels [] Hq) with (many := Nat.ltb 1 (length rels)) as (rows & Hrows & Hgr); [intros ? []|].
      erewrite bind_ok_intro.
      2:{ unfold find_relation_values, get. erewrite bind_ok_intro by reflexivity.
          rewrite <- Er. destruct rels; [congruence|exact Hrows]. }
      cbv beta iota.
      erewrite bind_ok_intro.
      2:{ unfold check_first_row. destruct rows as [|row rows]; [reflexivity|].
          destruct (Hgr row (or_introl eq_refl)) as (items & -> & Hlen & _).
          apply Nat.eqb_eq in Hlen. rewrite Hlen. reflexivity. }
      destruct (create_results_spec b args rows w Hgr) as (l & Hcr & _).
      erewrite bind_ok_intro by exact Hcr. eexists; reflexivity.
    Qed.

    Lemma core_here p : ~ user_pred p -> p <> "learn_rule" -> only_core mods w p.
    Proof. apply (core_only L tables arity rules w Hnames Hrules Hgood). Qed.
    Ltac core_pred := apply core_here; [intros (F & _); vm_compute in F; discriminate|discriminate].

    (** a nested query *)
    Lemma nested_ends q b : wfs GA [] (keys b) q -> const_binding b ->
      (forall s, const_assignment s -> agrees s b -> all_safe ext (keys b) q s) ->
      depth q < d -> (forall p, In p (preds q) -> rank p < k /\ has_relation p) ->
      exists l, solve mods n (VList (map fol_value q)) b w = (Ok (SList l), w) /\ exact ext q b l.
    Proof.
      intros Hw Hb Hs Hd Hp. destruct (Hnest (depth q) Hd q b) as (r & Hr); auto.
      destruct (Hexact n q b r w) as (_ & l & -> & Ex); auto. exists l. split; auto.
    Qed.

    Lemma single_ends f b : well_formed GA [] (keys b) f -> const_binding b ->
      (forall s, const_assignment s -> agrees s b -> safe ext (keys b) f s) ->
      fol_depth f < d -> (forall p, In p (fol_preds f) -> rank p < k /\ has_relation p) ->
      exists r, solve_single mods sv (fol_value f) b w = (Ok r, w).
    Proof.
      intros Hw Hb Hs Hd Hp.
      assert (Hself : agrees (asg b) b) by (apply asg_agrees, extends_refl).
      pose proof (asg_const b Hb) as Hsc.
      assert (Hcore : forall q, local [] (keys b) (vars q) /\ wfs GA [] (keys b) q ->
         (forall s, const_assignment s -> agrees s b -> all_safe ext (keys b) q s) ->
         depth q < d -> (forall p, In p (preds q) -> rank p < k /\ has_relation p) ->
         exists l, solve mods n (VList (map fol_value q)) b w = (Ok (SList l), w)).
      { intros q [_ Hwq] Hsq Hdq Hpq. destruct (nested_ends q b) as (l & Hl & _); eauto. }
      change (exists r, solve mods (S n) (VList [fol_value f]) b w = (Ok r, w)).
      destruct f as [a|t u|less t u|none q|q|alts|x range body|x q|c m q].
      - apply (atom_ends a b); auto; apply Hp; now left.
      - destruct Hw as (Ht & Hu & Hk). cbn [fol_value].
        assert (Hdec : forall v, flat_arg v -> known_arg (keys b) v \/ exists x, v = VVar x /\ bget x b = None).
        { intros v Hv. destruct (flat_arg_cases v Hv) as [[x ->]|[Hn _]].
          - simpl. destruct (bget x b) eqn:E; [left; apply bget_In_keys; congruence|right; eauto].
          - left. destruct v; try exact I. discriminate. }
        destruct (Hdec t Ht) as [Kt|(x & -> & Hx)], (Hdec u Hu) as [Ku|(y & -> & Hy)].
        + destruct (known_received b t Ht Kt Hb) as (v1 & R1 & C1 & N1 & I1).
          destruct (known_received b u Hu Ku Hb) as (v2 & R2 & C2 & N2 & I2).
          rewrite (solve_equals mods n t u v1 v2); auto; [eexists; reflexivity|core_pred].
        + destruct (known_received b t Ht Kt Hb) as (v1 & R1 & C1 & N1 & I1).
          rewrite (solve_equals_right mods n y t v1); auto; [eexists; reflexivity|core_pred].
        + destruct (known_received b u Hu Ku Hb) as (v2 & R2 & C2 & N2 & I2).
          rewrite (solve_equals_left mods n x u v2); auto; [eexists; reflexivity|core_pred].
        + exfalso. simpl in Hk. rewrite <- !bget_In_keys in Hk. destruct Hk; congruence.
      - destruct Hw as (Ht & Hu & Kt & Ku). cbn [fol_value].
        destruct (known_received b t Ht Kt Hb) as (v1 & R1 & C1 & N1 & I1).
        destruct (known_received b u Hu Ku Hb) as (v2 & R2 & C2 & N2 & I2).
        pose proof (Hs (asg b) Hsc Hself) as Hc. simpl in Hc. rewrite (I1 _ Hself), (I2 _ Hself) in Hc.
        destruct less.
        + rewrite (solve_less_than mods n t u v1 v2); auto; [|core_pred].
          pose proof (comparable_lt v1 v2 C1 C2 Hc) as Hne.
          destruct (py_lt v1 v2) as [[|]|]; try (eexists; reflexivity). congruence.
        + rewrite (solve_greater_than mods n t u v1 v2); auto; [|core_pred].
          pose proof (comparable_sym _ _ Hc) as Hc'.
          pose proof (comparable_lt v2 v1 C2 C1 Hc') as Hne.
          destruct (py_lt v2 v1) as [[|]|]; try (eexists; reflexivity). congruence.
      - rewrite wf_not in Hw. destruct (Hcore q Hw Hs Hd Hp) as [l Hl]. cbn [fol_value].
        destruct none; [rewrite solve_none by core_pred|rewrite solve_not by core_pred]; rewrite Hl;
          eexists; reflexivity.
      - rewrite wf_some in Hw. destruct (Hcore q Hw Hs Hd Hp) as [l Hl]. cbn [fol_value].
        rewrite solve_scoped by core_pred. rewrite Hl. eexists; reflexivity.
      - rewrite wf_or in Hw.
        change (exists r, solve_disjuncts sv (map (fun q => VList (map fol_value q)) alts) b w = (Ok r, w)).
        assert (G : forall rest, incl rest alts -> exists r,
            solve_disjuncts sv (map (fun q => VList (map fol_value q)) rest) b w = (Ok r, w)).
        { induction rest as [|q rest IH]; intros Hi; [eexists; reflexivity|].
          assert (Hq : In q alts) by (apply Hi; now left).
          destruct (Hcore q) as [l Hl].
          - destruct (Hw q Hq) as (A1 & A2 & _). auto.
          - intros s Hs1 Hs2. apply (proj1 (safe_or ext (keys b) alts s)); auto.
          - assert (depth q <= fol_depth (FOr alts)); [|lia]. cbn [fol_depth]. apply list_max_in.
            exact (in_map (fun q => S (list_max (map fol_depth q))) alts q Hq).
          - intros p Hpq. apply Hp. simpl. apply in_flat_map. eauto.
          - cbn [map solve_disjuncts]. erewrite bind_ok_intro by exact Hl.
            destruct (sres_len (SList l)); [|eexists; reflexivity]. apply IH.
            intros q' Hq'. apply Hi. now right. }
        apply G, incl_refl.
      - rewrite wf_all in Hw. destruct Hw as (A1 & _ & A3 & _ & A5 & _ & A7).
        cbn [fol_depth] in Hd. fold (depth range) (depth body) in Hd.
        assert (Hpr : forall p, In p (preds range) -> rank p < k /\ has_relation p).
        { intros p Hpq. apply Hp. simpl. apply in_or_app. auto. }
        assert (Hpb : forall p, In p (preds body) -> rank p < k /\ has_relation p).
        { intros p Hpq. apply Hp. simpl. apply in_or_app. auto. }
        destruct (nested_ends range b) as (rs & Hrs & [E1 E2 E3]); auto; [|lia|].
        { intros s Hs1 Hs2. apply (Hs s Hs1 Hs2). }
        pose proof A1 as Hx. apply not_known in Hx.
        (* the values of the range *)
        assert (Hval : forall r, In r rs -> exists e, bget x r = Some e /\ plain e = true /\
                  forall s, const_assignment s -> agrees s b -> in_range ext (keys b) x range s e).
        { intros r Hr. destruct (E1 r Hr) as (R1 & R2 & R3 & R4).
          assert (bget x r <> None) as Hn by (apply R3; apply in_or_app; auto).
          destruct (bget x r) as [e|] eqn:E; [|congruence]. exists e. split; auto.
          split; [apply (R1 _ _ E)|]. intros s Hs1 Hs2. exists (asg r).
          split; [now apply asg_const|]. split; [|split; auto].
          - apply (same_agrees s (asg r) b); auto. now apply asg_agrees.
          - unfold asg. now rewrite E. }
        set (es := map (fun r => match bget x r with Some e => e | None => VNone end) rs).
        assert (Hes : Forall2 (fun r e => bget x r = Some e) rs es).
        { unfold es. clear -Hval. induction rs as [|r rs IH]; simpl; constructor.
          - destruct (Hval r (or_introl eq_refl)) as (e & -> & _). reflexivity.
          - apply IH. intros r' Hr'. apply Hval. now right. }
        assert (Hin : forall e, In e es -> plain e = true /\
                  forall s, const_assignment s -> agrees s b -> in_range ext (keys b) x range s e).
        { intros e He. unfold es in He. apply in_map_iff in He as (r & <- & Hr).
          destruct (Hval r Hr) as (e & -> & Hpe). auto. }
        assert (Hsafe' : forall e s, In e es -> const_assignment s -> agrees s b -> s x = e ->
                  no_lists e = true /\ all_safe ext (x :: keys b) body s).
        { intros e s He Hs1 Hs2 <-. destruct (Hs s Hs1 Hs2) as [_ F]. apply F; auto.
          - intros y _. reflexivity.
          - now apply (Hin (s x) He). }
        assert (Hcb : forall e, plain e = true -> const_binding (bset x e b)).
        { intros e He y u. rewrite bget_bset. destruct (String.eqb x y); [intros [= <-]; auto|apply Hb]. }
        assert (Hagb : forall e s, agrees s (bset x e b) -> agrees s b /\ s x = e).
        { intros e s Ha. split.
          - intros y v Hy. apply Ha. rewrite bget_bset. destruct (String.eqb_spec x y) as [<-|]; [congruence|auto].
          - apply Ha. apply bget_bset_same. }
        destruct (first_values_exist es []) as [ents Hents].
        assert (Hbodies : forall e, In e ents -> exists l,
            solve mods n (VList (map fol_value body)) (bset x e b) w = (Ok (SList l), w)).
        { intros e He. apply (first_values_In _ _ _ Hents) in He. destruct (Hin e He) as [Hpe _].
          assert (Hk1 : near [] (vars body) (x :: keys b) (keys (bset x e b))).
          { apply near_same. intros y. rewrite keys_bset_in. simpl. split; intros [|]; auto. }
          destruct (nested_ends body (bset x e b)) as (l & Hl & _); eauto; [|  |lia].
          - eapply wfs_near; [exact A7|exact Hk1].
          - intros s Hs1 Hs2. destruct (Hagb e s Hs2) as [Hs3 Hs4].
            apply (all_safe_near ext GA [] body (x :: keys b)); auto.
            + intros y Hy. apply keys_bset_in. simpl in Hy. destruct Hy; auto.
            + now apply (Hsafe' e s He). }
        destruct (solve_all mods n x (map fol_value range) (map fol_value body) b w rs es ents
            (fun e => forall r, solve mods n (VList (map fol_value body)) (bset x e b) w = (Ok r, w) -> sres_len r <> 0))
          as (l & El & _); auto; [core_pred| | |eexists; exact El].
        + apply Forall_forall. intros e He. destruct (Hin e He) as [Hpe _]. split; [|now apply plain_data].
          apply no_lists_hashable. 
          assert (Hcs : const_assignment (asg (bset x e b))) by (apply asg_const; auto).
          destruct (Hagb e (asg (bset x e b))) as [G1 G2]; [apply asg_agrees, extends_refl|].
          apply (Hsafe' e _ He Hcs G1 G2).
        + intros e He. destruct (Hbodies e He) as [lb Hlb]. exists (SList lb). split; auto. split.
          * intros F. now apply F.
          * intros F r Hr. rewrite Hlb in Hr. injection Hr as <-. exact F.
      - rewrite wf_count in Hw. destruct Hw as (_ & _ & _ & Hw1 & Hw2).
        destruct (Hcore q (conj Hw1 Hw2) Hs Hd Hp) as [l Hl]. cbn [fol_value].
        rewrite solve_count by core_pred. rewrite Hl. eexists; reflexivity.
      - rewrite wf_det in Hw. destruct (Hcore q Hw Hs Hd Hp) as [l Hl]. cbn [fol_value].
        rewrite C18_determiners by (destruct c; (simpl; tauto) || core_pred).
        rewrite Hl. eexists; reflexivity.
    Qed.

    Lemma atoms_ends : forall q b, wfs GA [] (keys b) q -> const_binding b ->
      (forall s, const_assignment s -> agrees s b -> all_safe ext (keys b) q s) ->
      depth q <= d -> (forall p, In p (preds q) -> rank p < k /\ has_relation p) ->
      exists r, solve_atoms mods sv (map fol_value q) b w = (Ok r, w).
    Proof.
      induction q as [|f rest IH]; intros b Hw Hb Hs Hd Hp; [eexists; reflexivity|].
      destruct Hw as [Hw1 Hw2]. unfold depth in Hd. cbn [map list_max fold_right] in Hd.
      destruct (single_ends f b) as (r & Hr); auto.
      { intros s Hs1 Hs2. apply (Hs s Hs1 Hs2). }
      { unfold list_max in Hd. simpl in Hd. lia. }
      { intros p Hpp. apply Hp. unfold preds. simpl. apply in_or_app. auto. }
      pose proof Hr as Hr'. apply (single_exact L tables arity rules w ext Htab Hnames Hrules Hgood Hext n (Hexact n))
        in Hr' as (_ & l & -> & [E1 E2 E3]); auto.
      destruct rest as [|f2 rest]; [exists (SList l); exact Hr|].
      cbn [map]. rewrite solve_atoms_cons. erewrite bind_ok_intro by exact Hr.
      simpl sres_items. erewrite bind_ok_intro by reflexivity.
      set (q := f2 :: rest) in *.
      assert (G : forall bs acc, incl bs l ->
         exists res, foldM (conj_step mods sv (map fol_value q)) acc bs w = (Ok res, w)).
      { induction bs as [|b0 bs IHb]; intros acc Hbs; [eexists; reflexivity|].
        assert (Hb0 : In b0 l) by (apply Hbs; now left).
        destruct (E1 b0 Hb0) as (R1 & R2 & R3 & [R4 _]).
        assert (Hkeys : forall x, In x (keys b0) <-> In x (fol_binds f ++ keys b)).
        { intros x. rewrite (dom_keys b b0 [f] R3). unfold binds. simpl. now rewrite app_nil_r. }
        assert (Hk1 : near [] (vars q) (fol_binds f ++ keys b) (keys b0)).
        { apply near_same. intros x. now rewrite Hkeys. }
        assert (Hwq : wfs GA [] (keys b0) q) by (eapply wfs_near; [exact Hw2|exact Hk1]).
        destruct (IH b0) as (r0 & Hr0); auto.
        - intros s Hs1 Hs2. apply (all_safe_near ext GA [] q (fol_binds f ++ keys b)); auto.
          + intros x Hx. now apply Hkeys.
          + assert (Hsb : agrees s b) by (intros x v Hx; apply Hs2; now apply R2).
            destruct (Hs s Hs1 Hsb) as [_ F]. apply F; auto; [intros y _; reflexivity|].
            apply (holds_stable ext GA [] f (keys b) (asg b0) s); auto using asg_const.
            intros x _ Hx. assert (bget x b0 <> None) as Hn.
            { apply bget_In_keys, Hkeys. apply in_or_app. tauto. }
            unfold asg. destruct (bget x b0) eqn:E; [|congruence]. symmetry. now apply Hs2.
        - unfold depth. unfold list_max in Hd |- *. cbn [map fold_right] in Hd |- *. lia.
        - intros p Hpp. apply Hp. unfold preds. simpl. apply in_or_app. right. exact Hpp.
        - pose proof Hr0 as Hr0'.
          apply (atoms_exact L tables arity rules w ext Htab Hnames Hrules Hgood Hext n (Hexact n))
            in Hr0' as (_ & l0 & -> & _); auto.
          cbn [foldM]. erewrite bind_ok_intro.
          2:{ unfold conj_step. erewrite bind_ok_intro by exact Hr0. reflexivity. }
          apply IHb. intros x Hx. apply Hbs. now right. }
      destruct (G l [] (incl_refl l)) as [res Hres].
      erewrite bind_ok_intro by exact Hres. eexists; reflexivity.
    Qed.
  End Step.

  Lemma fol_ends : forall n k d, d + k * D <= n -> sv_ends k d (solver_at mods n).
  Proof.
    induction n as [|n IH]; intros k d Hn q b Hw Hb Hs Hd Hp.
    - unfold depth in Hd. lia.
    - simpl. apply (atoms_ends k d n); auto.
      + intros d' Hd'. apply IH. lia.
      + intros k' Hk'. apply IH. unfold depth in Hd.
        assert (S k' * D <= k * D) by (apply Nat.mul_le_mono_r; lia). simpl in H. lia.
  Qed.
End Total.
