(** * Sentences: the reply to what is understood *)

From Coq Require Import ZArith String Ascii List Bool Lia Arith Sorted.
From Verif Require Import Py PyFacts Effects EffectsFacts Atoms Composer ComposerSpec ComposerProofs Solver SolverSpec CoreSpec CoreProofs3
  InferenceModule SimpleDataSource Memory Grammar Generator
  DatalogSpec DatalogProofs FolSpec FolProofs FolProofs2 FolProofs3 FolProofs4 FolProofs5 PropFol PropSystem2
  QuestionSystem QuestionProofs QuestionProofs2 FragmentSpec FragmentModel FragmentProofs FragmentProofs2 PropFragment
  TalkSpec TalkModel TalkProofs TalkProofs2 TalkProofs3 TalkProofs4.
Import ListNotations.
Local Open Scope nat_scope.
Local Open Scope string_scope.
Local Open Scope list_scope.

Lemma in_values x l c : In c (values_of x l) <-> exists r, In r l /\ bget x r = Some c.
Proof.
  unfold values_of. rewrite in_flat_map. split; intros (r & Hr & E); exists r; (split; [exact Hr|]).
  - destruct (bget x r) as [c'|]; [destruct E as [->|[]]; reflexivity|destruct E].
  - rewrite E. now left.
Qed.
Lemma texts_of l : (forall c, In c l -> of_sort Text c) -> exists ss, l = map VStr ss.
Proof.
  induction l as [|c l IH]; intros H; [exists []; reflexivity|]. destruct IH as (ss & ->); [intros; apply H; now right|].
  specialize (H c (or_introl eq_refl)). destruct c; try contradiction. exists (s :: ss). reflexivity.
Qed.
(** the distinct texts, sorted *)
Lemma first_texts es kept : first_values [] es kept -> (forall c, In c es -> of_sort Text c) ->
  exists ss, kept = map VStr ss /\ StronglySorted comes_before (sort_texts ss) /\
  forall c, In c es <-> exists s, c = VStr s /\ In s (sort_texts ss).
Proof.
  intros Hf Ht.
  assert (Hk : forall c, In c kept <-> In c es).
  { intros c. split; [now apply (first_values_In es [])|]. intros Hc.
    assert (Hp : forall e, In e es -> plain e = true) by (intros e He; specialize (Ht e He); destruct e; try contradiction; reflexivity).
    destruct (first_values_all es Hp [] kept Hf (fun e F => match F with end) c Hc) as [H|[]]. exact H. }
  destruct (texts_of kept) as (ss & ->); [intros c Hc; apply Ht, Hk, Hc|].
  exists ss. split; [reflexivity|]. split.
  - apply sort_texts_sorted. destruct (first_values_distinct _ _ _ Hf) as (D & _). clear -D.
    induction ss as [|s ss IH]; [constructor|]. inversion D as [|? ? Hs D']; subst. constructor; [|apply IH; exact D'].
    intros Hin. rewrite Forall_forall in Hs. specialize (Hs (VStr s) (in_map VStr _ _ Hin)). cbn in Hs. rewrite String.eqb_refl in Hs. discriminate.
  - intros c. rewrite <- Hk, in_map_iff. split.
    + intros (s & <- & Hs). exists s. split; [reflexivity|]. now apply sort_texts_in.
    + intros (s & -> & Hs). exists s. split; [reflexivity|]. now apply sort_texts_in.
Qed.

Lemma none_first es : first_values [] es [] -> forall c, ~ In c es.
Proof. intros H c. inversion H as [|? ? ? ? ? F|]; subst; [intros []|destruct F]. Qed.

Lemma dollar_not x l : dollar x -> forallb (fun y => match y with String c _ => negb (Ascii.eqb c "$") | _ => false end) l = true -> ~ In x l.
Proof. intros (s & ->) H Hin. rewrite forallb_forall in H. specialize (H _ Hin). discriminate. Qed.

Section Replies.
  Context {V : Type}.
  Variable LR : lens V rulebase.
  Variable tables : V -> string -> option (list (list value)).
  Variable LB : lens V sds_store.
  Variable v : V.
  Variable arity : string -> nat.
  Variable rules : list folrule.
  Hypothesis HB : lens_ok LB.
  Hypothesis HLR : forall s w, lget LR (lset LB s w) = lget LR w.
  Hypothesis Htb : forall s w p, tables (lset LB s w) p = tables w p.
  Hypothesis Hrules : lget LR v = stored_rules rules ++ intent_rules.
  Hypothesis Hempty : lget LB v = [].
  Hypothesis Htab : good_tables tables arity v.
  Hypothesis Hnames : forall p, tables v p <> None -> user_pred p.
  Hypothesis Hgood : forall r, In r rules -> good_rule (flat_atom arity) r.
  Hypothesis Hres : forall p, has_relation tables rules v p -> ~ In p reserved.
  Variable rank : string -> nat.
  Variable sig : string -> list sort.
  Hypothesis Hrank : hierarchical rank rules.
  Hypothesis Hkn : forall r p, In r rules -> In p (preds (rl_body r)) -> has_relation tables rules v p.
  Hypothesis Hdb : forall p t, In t (db_of tables v p) -> Forall2 of_sort (sig p) t.
  Hypothesis Hsr : forall r, In r rules -> sorted_rule sig r.
  Variable ext : string -> list value -> Prop.
  Hypothesis Hext : completed (db_of tables v) rules ext.
  Variable lx : lexicon.
  Hypothesis Hlx : good_lexicon tables arity rules v sig Text lx.
  Variable format_table : list value -> M V value.

  Notation mods := (talk_mods LR tables LB).
  Notation buffered := (buffered LB v).
  Let noun_ok := gl_noun tables arity rules v sig Text lx Hlx.
  Let adj_ok := gl_adj tables arity rules v sig Text lx Hlx.
  Let verb_ok := gl_verb tables arity rules v sig Text lx Hlx.

  Definition replies (s : sentence) (m : value) : Prop :=
    exists n0, forall n, n0 <= n -> exists st value,
      solve mods n m [] v = (Ok (SList [[]]), buffered st) /\
      (forall k, generate_output (grammar_rules (write_rules format_table)) (solve mods (S k)) LB (S k) (buffered st) = (Ok value, v)) /\
      (sentence_counts s -> reply ext s value).

  Lemma rows_sorted p : sorted_rows sig ext p.
  Proof. apply (program_sorted sig (flat_atom arity) (db_of tables v) rules ext rank); auto. Qed.

  Lemma phrase_sorted b x q : nbar_fol x b q -> nbar_in lx b -> all_sorted sig (fun _ => Text) q.
  Proof.
    apply (proj1 (fragment_sorted lx sig Text
        (fun n Hn => proj2 (gl_unary _ _ _ _ _ _ _ Hlx n (in_or_app _ _ _ (or_introl Hn))))
        (fun n Hn => proj2 (gl_unary _ _ _ _ _ _ _ Hlx n (in_or_app _ _ _ (or_intror Hn))))
        (fun n Hn => proj2 (gl_binary _ _ _ _ _ _ _ Hlx n Hn)))).
  Qed.
  Lemma said_sorted b x q : vp_fol x b q -> vp_in lx b -> all_sorted sig (fun _ => Text) q.
  Proof.
    apply (proj1 (proj2 (proj2 (fragment_sorted lx sig Text
        (fun n Hn => proj2 (gl_unary _ _ _ _ _ _ _ Hlx n (in_or_app _ _ _ (or_introl Hn))))
        (fun n Hn => proj2 (gl_unary _ _ _ _ _ _ _ Hlx n (in_or_app _ _ _ (or_intror Hn))))
        (fun n Hn => proj2 (gl_binary _ _ _ _ _ _ _ Hlx n Hn)))))).
  Qed.
  Lemma phrase_preds b x q : nbar_fol x b q -> nbar_in lx b -> forall p, In p (preds q) -> user_pred p /\ has_relation tables rules v p.
  Proof. intros N I p Hp. apply (gl_preds _ _ _ _ _ _ _ Hlx). apply (proj1 (fragment_preds lx) _ _ _ N I p Hp). Qed.
  Lemma said_preds b x q : vp_fol x b q -> vp_in lx b -> forall p, In p (preds q) -> user_pred p /\ has_relation tables rules v p.
  Proof. intros N I p Hp. apply (gl_preds _ _ _ _ _ _ _ Hlx). apply (proj1 (proj2 (proj2 (fragment_preds lx))) _ _ _ N I p Hp). Qed.
  Lemma phrase_answerable b x q : nbar_fol x b q -> nbar_in lx b -> answerable_query tables arity rules v sig q.
  Proof.
    intros N I. split; [|split].
    - apply (proj1 (fragment_wf (flat_atom arity) lx noun_ok adj_ok verb_ok) _ _ _ N I []). intros z _ [].
    - apply (phrase_preds b x q N I).
    - exists (fun _ => Text). now apply (phrase_sorted b x).
  Qed.

  (** the values of a phrase *)
  Lemma phrase_texts b x q l : nbar_fol x b q -> nbar_in lx b -> exact ext q [] l -> forall c, In c (values_of x l) -> of_sort Text c.
  Proof.
    intros N I [Es _ _] c Hc. apply in_values in Hc as (r & Hr & Er). destruct (Es r Hr) as (_ & _ & _ & Hh).
    pose proof (phrase_sorted b x q N I) as S. destruct (nbar_head _ _ _ N) as (p & q' & ->). cbn in S, Hh. destruct S as (S & _), Hh as (Hh & _).
    apply rows_sorted in Hh. unfold asg in Hh. cbn in Hh. rewrite Er in Hh. inversion S as [|c0 ? cs ? E0 S' E1]; subst. inversion S'; subst.
    rewrite <- E1 in Hh. inversion Hh; subst. cbn in E0. now subst.
  Qed.
  Lemma phrase_values b x q l : nbar_fol x b q -> nbar_in lx b -> nbar_counts b -> exact ext q [] l ->
    forall c, In c (values_of x l) <-> individual c /\ nbar_true ext b c.
  Proof.
    intros N I C [Sound Complete _] c.
    assert (Sa : says ext x q (nbar_true ext b)) by (apply (proj1 (fragment_true (flat_atom arity) lx noun_ok adj_ok verb_ok ext) _ _ _ N I C)).
    destruct (nbar_var _ _ _ N) as (_ & Bx & _).
    pose (s0 := fun _ : string => VInt 0).
    assert (Hs0 : const_assignment s0) by (intros y; reflexivity).
    pose proof (says_range (flat_atom arity) lx noun_ok adj_ok verb_ok ext x b q _ [] s0 c N I Sa Hs0 (fun z _ F => F)) as R.
    rewrite <- R, in_values. split.
    - intros (r & Hr & Er). destruct (Sound r Hr) as (Hc & _ & _ & Hh). exists (asg r). split; [now apply asg_const|]. split; [intros z []|].
      split; [unfold asg; now rewrite Er|exact Hh].
    - intros (s' & Hs' & _ & <- & Hh). destruct (Complete s' Hs') as (r & Hr & Hx); auto; [intros z y Hz; discriminate|].
      exists r. split; [exact Hr|]. apply Hx. apply in_or_app. now right.
  Qed.

  (** a query with the same answers *)
  Definition equivalent (q q' : list fol) : Prop :=
    answerable_query tables arity rules v sig q' /\ incl (vars q') (vars q) /\ forall l, exact ext q' [] l -> exact ext q [] l.
  Lemma equivalent_refl q : answerable_query tables arity rules v sig q -> equivalent q q.
  Proof. intros H. split; auto. split; auto. intros y Hy. exact Hy. Qed.

  Lemma list_replies s b x q q' : nbar_fol x b q -> nbar_in lx b -> (forall y, In y (vars q) -> dollar y) ->
    (forall l, sentence_counts s -> listing l (fun c => individual c /\ nbar_true ext b c) -> reply ext s (VStr (String.concat ", " l))) ->
    (sentence_counts s -> nbar_counts b) -> equivalent q q' ->
    replies s (intent "intent_list" [VStr x; query_of q']).
  Proof.
    intros N I Hd Hr Hc (Aq & Vq & Eq).
    destruct (do_list LR tables LB v arity rules HB HLR Htb Hrules Hempty Htab Hnames Hgood Hres rank sig Hrank Hkn Hdb Hsr ext Hext x q') as (n0 & Hn0).
    - exact Aq.
    - apply dollar_not; [|reflexivity]. apply Hd. now destruct (nbar_var _ _ _ N).
    - intros y Hy. apply dollar_not; [now apply Hd, Vq|reflexivity].
    - exists n0. intros n Hn. destruct (Hn0 n Hn) as (l & kept & Ex & Hf & E). apply Eq in Ex.
      destruct (first_texts _ _ Hf (phrase_texts b x q l N I Ex)) as (ss & -> & So & Hin).
      exists (saying "list" "output_list" "elements" (VList (map VStr ss))), (VStr (String.concat ", " (sort_texts ss))).
      split; [exact E|]. split.
      + intros k. apply (read_list LR tables LB v rules HB HLR Htb Hrules Hempty Hres).
      + intros C. apply Hr; auto. split; [exact So|]. intros c. rewrite <- (phrase_values b x q l N I (Hc C) Ex c). apply Hin.
  Qed.

  Lemma yn_replies s q q' : (forall y, In y (vars q) -> dollar y) -> equivalent q q' ->
    (forall a, sentence_counts s -> const_assignment a -> possible ext [] q a -> reply ext s (VStr "yes")) ->
    (forall a, sentence_counts s -> const_assignment a -> ~ possible ext [] q a -> reply ext s (VStr "no")) ->
    replies s (intent "intent_yn" [query_of q']).
  Proof.
    intros Hd (Ha & Vq & Eq) Hy Hn.
    destruct (do_yn LR tables LB v arity rules HB HLR Htb Hrules Hempty Htab Hnames Hgood Hres rank sig Hrank Hkn Hdb Hsr ext Hext q' Ha) as (n0 & Hn0).
    - intros y H E. apply (dollar_not y ["Body"]); [now apply Hd, Vq|reflexivity|subst; now left].
    - exists n0. intros n Hn'. destruct (Hn0 n Hn') as (l & Ex & E). apply Eq in Ex.
      set (t := match l with [] => "no" | _ => "yes" end) in *. exists (typed t), (VStr t). split; [exact E|]. split.
      + intros k. apply (read_type LR tables LB v rules HB HLR Htb Hrules Hempty Hres). unfold t. destruct l; cbn; auto 10.
      + intros C. pose (s0 := fun _ : string => VInt 0).
        assert (Hs0 : const_assignment s0) by (intros y; reflexivity).
        assert (P : l <> [] <-> possible ext [] q s0) by (apply (exact_possible ext q [] l s0 Ex Hs0); intros z y; discriminate).
        unfold t. destruct l as [|r l].
        * apply (Hn s0); auto. intros F. apply P in F. congruence.
        * apply (Hy s0); auto. apply P. discriminate.
  Qed.

  Lemma count_answerable b u x y q1 q2 : nbar_fol y b q1 -> vp_fol y u q2 -> only y q1 q2 -> nbar_in lx b -> vp_in lx u ->
    ~ In x (vars (q1 ++ q2)) -> answerable_query tables arity rules v sig [FCount x (q1 ++ q2)].
  Proof.
    intros N1 N2 On Ib Iu Nx.
    assert (N : nbar_fol y (Rel b (That u)) (q1 ++ q2)) by (constructor; auto; now constructor).
    assert (I : nbar_in lx (Rel b (That u))) by (split; auto).
    destruct (phrase_answerable _ _ _ N I) as (Wf & Pr & _). split; [|split].
    - split; [|exact Logic.I]. rewrite wf_count. split; [intros []|]. split; [intros []|]. split; [exact Nx|]. split; [apply local_nil|exact Wf].
    - intros p Hp. apply Pr. unfold preds in *. cbn in Hp. now rewrite app_nil_r in Hp.
    - apply (count_sorted sig Text); [exact Nx|]. apply (phrase_sorted _ _ _ N I).
  Qed.

  Lemma count_replies b u x y q1 q2 q' : nbar_fol y b q1 -> vp_fol y u q2 -> only y q1 q2 -> nbar_in lx b -> vp_in lx u ->
    ~ In x (vars (q1 ++ q2)) -> dollar x -> (forall z, In z (vars (q1 ++ q2)) -> dollar z) -> equivalent [FCount x (q1 ++ q2)] q' ->
    replies (SHowMany b u) (intent "intent_value" [VStr x; query_of q']).
  Proof.
    intros N1 N2 On Ib Iu Nx Dx Dv (Ac & Vq & Eq).
    assert (N : nbar_fol y (Rel b (That u)) (q1 ++ q2)) by (constructor; auto; now constructor).
    assert (I : nbar_in lx (Rel b (That u))) by (split; auto).
    pose proof (phrase_answerable _ _ _ N I) as Ai.
    destruct (inner_query LR tables LB v arity rules HLR Htb Hrules Htab Hnames Hgood Hres rank sig Hrank Hkn Hdb Hsr ext Hext (q1 ++ q2) [] [] Ai) as (n1 & Hn1); [reflexivity|].
    destruct (do_value LR tables LB v arity rules HB HLR Htb Hrules Hempty Htab Hnames Hgood Hres rank sig Hrank Hkn Hdb Hsr ext Hext x q' Ac) as (n0 & Hn0).
    - apply dollar_not; [exact Dx|reflexivity].
    - intros z Hz. apply Vq in Hz. apply dollar_not; [|reflexivity]. unfold vars in Hz. cbn in Hz. rewrite app_nil_r in Hz. destruct Hz as [<-|Hz]; auto.
    - exists (n0 + n1). intros n Hn. destruct (Hn0 n ltac:(lia)) as (l & kept & Ex & Hf & E). apply Eq in Ex. destruct (Hn1 n ltac:(lia)) as (l1 & _ & Ex1).
      pose (s0 := fun _ : string => VInt 0).
      assert (Hs0 : const_assignment s0) by (intros z; reflexivity).
      assert (Nm : number ext [] (q1 ++ q2) (update s0 x (VInt (Z.of_nat (length l1)))) (length l1)).
      { apply (exact_number ext (q1 ++ q2) [] l1); auto; [now apply update_const|]. intros z c; discriminate. }
      assert (Hval : forall c, In c (values_of x l) -> exists k, c = VInt (Z.of_nat k) /\ exists a, const_assignment a /\ number ext [] (q1 ++ q2) a k).
      { intros c Hc. apply in_values in Hc as (r & Hr & Er). destruct Ex as [Es _ _]. destruct (Es r Hr) as (Hcr & _ & _ & Hh & _).
        rewrite holds_count in Hh. destruct Hh as (k & Hk & Ek). unfold asg in Ek at 1. rewrite Er in Ek. exists k. split; [exact Ek|]. exists (asg r). split; [now apply asg_const|exact Hk]. }
      assert (Hne : exists c, In c (values_of x l)).
      { destruct Ex as [_ Ec _]. destruct (Ec (update s0 x (VInt (Z.of_nat (length l1))))) as (r & Hr & Hx).
        - now apply update_const.
        - intros z c; discriminate.
        - split; [|exact Logic.I]. rewrite holds_count. exists (length l1). split; [exact Nm|apply update_same].
        - exists (update s0 x (VInt (Z.of_nat (length l1))) x). apply in_values. exists r. split; [exact Hr|]. apply Hx. now left. }
      destruct kept as [|c more].
      { exfalso. destruct Hne as (c & Hc). apply (none_first _ Hf c Hc). }
      assert (Hc : In c (values_of x l)) by (apply (first_values_In _ _ _ Hf); now left).
      destruct (Hval c Hc) as (k & -> & a & Ha & Hk).
      exists (saying "value" "output_value" "value" (VInt (Z.of_nat k))), (VInt (Z.of_nat k)). split; [apply (E _ more eq_refl); discriminate|]. split.
      + intros j. apply (read_value LR tables LB v rules HB HLR Htb Hrules Hempty Hres). discriminate.
      + intros C. constructor. apply (how_many_true (flat_atom arity) lx noun_ok adj_ok verb_ok ext b u y q1 q2 a k); auto.
  Qed.

  (** [ready]: what the one that may change a query wants of it *)
  Variable ready : list fol -> Prop.
  Hypothesis ready_phrase : forall x b q, nbar_fol x b q -> nbar_in lx b -> ready q.
  Hypothesis ready_subject : forall x o r q, nbar_fol x (np_nbar o) r -> np_in lx o ->
    (q = [] \/ exists u, vp_fol x u q /\ vp_in lx u) -> only x r q -> ready (np_query o x r q).
  Hypothesis ready_count : forall x y b q, nbar_fol y b q -> nbar_in lx b -> ready [FCount x q].

  (** Every sentence is an intent with a query, and replied to also with an
      equivalent query in its place. *)
  Theorem sentence_replies xs s m : sentence_in lx s -> sentence_means xs s m -> (forall y, occurs y m -> dollar y) ->
    exists p args q, m = intent p (args ++ [query_of q]) /\ In p ["intent_list"; "intent_yn"; "intent_value"] /\
      (args = [] \/ exists x, args = [VStr x]) /\ answerable_query tables arity rules v sig q /\ ready q /\
      forall q', equivalent q q' -> replies s (intent p (args ++ [query_of q'])).
  Proof.
    intros Hs Hm Hd.
    assert (D : forall p l q, m = intent p (l ++ [query_of q]) -> forall y, In y (vars q) -> dollar y).
    { intros p l q -> y Hy. apply Hd. unfold intent. apply occurs_list with (VTuple (VStr p :: l ++ [query_of q])); [now left|].
      apply occurs_tuple with (query_of q); [right; apply in_or_app; right; now left|now apply vars_occur]. }
    assert (Wq : forall x u q, vp_fol x u q -> vp_in lx u -> forall B, outside x B q -> wfs (flat_atom arity) [] B q).
    { intros x u q Hq Hu. apply (proj1 (proj2 (proj2 (fragment_wf (flat_atom arity) lx noun_ok adj_ok verb_ok))) _ _ _ Hq Hu). }
    destruct Hm as [x b u q1 q2 N1 N2 On|x b q N|x o u r q N1 N2 On|x o r N|x y b u q1 q2 N1 N2 On Nx].
    - destruct Hs as (Ib & Iu).
      assert (N : nbar_fol x (Rel b (That u)) (q1 ++ q2)) by (constructor; auto; now constructor).
      assert (Ir : nbar_in lx (Rel b (That u))) by (split; auto).
      exists "intent_list", [VStr x], (q1 ++ q2). split; [reflexivity|]. split; [cbn; auto|]. split; [eauto|]. split; [now apply (phrase_answerable _ _ _ N)|].
      split; [now apply (ready_phrase x _ _ N)|]. intros q' Eq.
      apply (list_replies _ (Rel b (That u)) x (q1 ++ q2)); auto.
      + apply (D "intent_list" [VStr x]). reflexivity.
      + intros l _ Hl. constructor. exact Hl.
    - exists "intent_list", [VStr x], q. split; [reflexivity|]. split; [cbn; auto|]. split; [eauto|]. split; [now apply (phrase_answerable _ _ _ N)|].
      split; [now apply (ready_phrase x _ _ N)|]. intros q' Eq.
      apply (list_replies _ b x q); auto.
      + apply (D "intent_list" [VStr x]). reflexivity.
      + intros l _ Hl. now constructor.
    - destruct Hs as (Io & Iu). pose proof (np_in_nbar _ _ Io) as Ib.
      exists "intent_yn", [], (np_query o x r q). split; [reflexivity|]. split; [cbn; auto|]. split; [auto|].
      assert (An : answerable_query tables arity rules v sig (np_query o x r q)).
      { split; [|split].
        * apply (subject_wf (flat_atom arity) lx noun_ok adj_ok verb_ok); auto. now apply (Wq x u).
        * intros p Hp. apply np_query_preds in Hp as [Hp|Hp]; [now apply (phrase_preds _ _ _ N1 Ib)|now apply (said_preds _ _ _ N2 Iu)].
        * exists (fun _ => Text). apply np_query_sorted; [now apply (phrase_sorted _ _ _ N1)|now apply (said_sorted _ _ _ N2)]. }
      split; [exact An|]. split; [eapply ready_subject; eauto|]. intros q' Eq. apply (yn_replies _ (np_query o x r q)); auto.
      + apply (D "intent_yn" []). reflexivity.
      + intros a C Ha P. constructor. now apply (does_true (flat_atom arity) lx noun_ok adj_ok verb_ok ext o u x r q a).
      + intros a C Ha P. apply r_does_no. intros F. apply P. now apply (does_true (flat_atom arity) lx noun_ok adj_ok verb_ok ext o u x r q a).
    - pose proof (np_in_nbar _ _ Hs) as Ib.
      exists "intent_yn", [], (np_query o x r []). split; [reflexivity|]. split; [cbn; auto|]. split; [auto|].
      assert (An : answerable_query tables arity rules v sig (np_query o x r [])).
      { split; [|split].
        * apply (subject_wf (flat_atom arity) lx noun_ok adj_ok verb_ok); auto; [intros z _ []|intros B _; exact I].
        * intros p Hp. apply np_query_preds in Hp as [Hp|[]]. now apply (phrase_preds _ _ _ N Ib).
        * exists (fun _ => Text). apply np_query_sorted; [now apply (phrase_sorted _ _ _ N)|exact I]. }
      split; [exact An|]. split; [apply ready_subject; auto; intros z _ []|]. intros q' Eq. apply (yn_replies _ (np_query o x r [])); auto.
      + apply (D "intent_yn" []). reflexivity.
      + intros a C Ha P. constructor. now apply (is_there_true (flat_atom arity) lx noun_ok adj_ok verb_ok ext o x r a).
      + intros a C Ha P. apply r_is_there_no. intros F. apply P. now apply (is_there_true (flat_atom arity) lx noun_ok adj_ok verb_ok ext o x r a).
    - destruct Hs as (Ib & Iu). pose proof (D "intent_value" [VStr x] [FCount x (q1 ++ q2)] eq_refl) as Dq.
      assert (N : nbar_fol y (Rel b (That u)) (q1 ++ q2)) by (constructor; auto; now constructor).
      assert (Ir : nbar_in lx (Rel b (That u))) by (split; auto).
      exists "intent_value", [VStr x], [FCount x (q1 ++ q2)]. split; [reflexivity|]. split; [cbn; auto|]. split; [eauto|].
      split; [now apply (count_answerable b u x y)|]. split; [now apply (ready_count x y _ _ N)|]. intros q' Eq.
      assert (Vq : forall z, In z (vars [FCount x (q1 ++ q2)]) <-> z = x \/ In z (vars (q1 ++ q2))).
      { intros z. unfold vars. cbn. rewrite app_nil_r. intuition. }
      apply (count_replies b u x y q1 q2); auto.
      + apply Dq, Vq. now left.
      + intros z Hz. apply Dq, Vq. now right.
  Qed.
End Replies.
