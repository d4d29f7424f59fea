(** * Histories of parses; which rule a tree shows; errors; sorting *)

From Coq Require Import ZArith String Ascii List Bool Arith Lia Permutation Sorted.
From Verif Require Import Py Effects Grammar Earley ParserSpec GrammarProofs EarleyProofs EarleyProofs2 EarleyProofs3 EarleyProofs4 EarleyProofs5 EarleyProofs6.
Import ListNotations.
Local Open Scope string_scope.
Local Open Scope list_scope.
Local Open Scope outcome_scope.

(** ** duplicate rules *)
Section History.
  Context {S : Type}.
  Variable scan_mean : option string -> S.
  Variable delta_mean gamma_mean : S.
  Variable re_match : string -> string -> outcome (option string).

  Notation rule := (grule S).
  Notation cstate := (@cstate S).
  Notation chart := (@chart S).
  Notation step := (step scan_mean re_match).
  Notation build_chart := (build_chart scan_mean gamma_mean re_match).
  Notation earley_parse := (earley_parse scan_mean delta_mean gamma_mean re_match).
  Notation gamma := (gamma_rule gamma_mean).

  Lemma enqueue_known (s : cstate) pos ch : pos < length (ch_states ch) -> state_in s (states_at ch pos) = true -> enqueue s pos ch = Ok ch.
  Proof.
    intros Hp H. unfold enqueue. destruct (nth_error (ch_states ch) pos) as [l|] eqn:E; [|apply nth_error_None in E; lia].
    assert (Hl : states_at ch pos = l) by (unfold states_at; now apply nth_error_nth). rewrite Hl in H. now rewrite H.
  Qed.
  Lemma enqueue_all_range (l : list cstate) : forall ch ch', enqueue_all l ch = Ok ch' ->
    length (ch_states ch') = length (ch_states ch) /\ forall x, In x l -> s_end x < length (ch_states ch).
  Proof.
    induction l as [|x l IH]; intros ch ch' H; simpl in H; [inversion H; subst; split; [reflexivity|intros x []]|].
    apply obind_ok in H as (ch1 & H1 & H). apply enqueue_ok in H1 as (Hp & _ & _ & Hl & _). apply IH in H as [E HI]. split; [congruence|].
    intros y [<-|Hy]; [exact Hp|]. rewrite <- Hl. auto.
  Qed.
  Lemma enqueue_all_again (l : list cstate) ch : (forall x, In x l -> s_end x < length (ch_states ch) /\ state_in x (states_at ch (s_end x)) = true) ->
    enqueue_all l ch = Ok ch.
  Proof.
    induction l as [|x l IH]; intros H; simpl; [reflexivity|]. destruct (H x (or_introl eq_refl)) as [H1 H2].
    rewrite (enqueue_known _ _ _ H1 H2). simpl. apply IH. intros y Hy. apply H. right. exact Hy.
  Qed.
  Lemma enqueue_all_dup (l l' : list cstate) ch : incl l' l -> enqueue_all (l ++ l') ch = enqueue_all l ch.
  Proof.
    intros Hi. rewrite enqueue_all_app. destruct (enqueue_all l ch) as [ch1| |] eqn:E; simpl; try reflexivity.
    apply enqueue_all_again. intros x Hx. apply Hi in Hx. destruct (enqueue_all_range _ _ _ E) as [El HR]. split; [rewrite El; auto|].
    eapply enqueue_all_mem; eassumption.
  Qed.

  (** two indexes that differ in repeated rules only *)
  Definition same_rules (ix jx : gindex S) : Prop := forall c n, exists extra,
    incl extra (find_rules jx c n) /\ find_rules ix c n = find_rules jx c n ++ extra.
  Lemma predict_same ix jx ch s : same_rules ix jx -> predict ix ch s = predict jx ch s.
  Proof.
    intros H. unfold predict. destruct (next_cons s) as [c|]; [|reflexivity]. destruct (H (k_pred c) (length (k_args c))) as (extra & Hi & ->).
    rewrite !predict_loop_all, map_app. apply enqueue_all_dup. intros x Hx. apply in_map_iff in Hx as (r & <- & Hr).
    apply in_map_iff. exists r. split; [reflexivity|]. apply Hi. exact Hr.
  Qed.
  Lemma step_same ix jx i ch s : same_rules ix jx -> step ix i ch s = step jx i ch s.
  Proof. intros H. unfold Earley.step. destruct (is_complete s); [reflexivity|]. now rewrite (predict_same _ _ _ _ H). Qed.
  Lemma process_position_same ix jx n : same_rules ix jx -> forall i j ch,
    process_position scan_mean re_match n ix i j ch = process_position scan_mean re_match n jx i j ch.
  Proof.
    intros H. induction n as [|n IH]; intros i j ch; simpl; [reflexivity|]. destruct (nth_error _ _) as [s|]; [|reflexivity].
    rewrite (step_same _ _ _ _ _ H). destruct (step jx i ch s); simpl; auto.
  Qed.
  Lemma build_chart_same ix jx n text : same_rules ix jx -> build_chart n ix text = build_chart n jx text.
  Proof.
    intros H. unfold Earley.build_chart. destruct (enqueue _ _ _) as [ch| |]; simpl; try reflexivity.
    generalize (seq 0 (String.length text + 1)). intros is. revert ch. induction is as [|i is IH]; intros ch; simpl; [reflexivity|].
    rewrite (process_position_same _ _ _ H). destruct (process_position _ _ _ _ _ _ _); simpl; auto.
  Qed.

  Lemma after_same k (ix : gindex S) : same_rules (after delta_mean (Datatypes.S k) ix) (after delta_mean 1 ix).
  Proof.
    intros c n. rewrite !find_rules_after. destruct (String.eqb "delta" c && Nat.eqb 1 n).
    - exists (concat (repeat (map (delta_rule delta_mean) (find_argument_counts ix "s")) k)). split.
      + intros x Hx. apply in_or_app. right. simpl. rewrite app_nil_r. apply in_concat in Hx as (l & Hl & Hx). apply repeat_spec in Hl. now subst.
      + simpl. now rewrite app_nil_r, app_assoc.
    - exists []. rewrite !app_nil_r. split; [intros x []|reflexivity].
  Qed.

  Lemma earley_parse_after n text k (ix : gindex S) :
    earley_parse n text (after delta_mean k ix) = (fst (earley_parse n text ix), after delta_mean (Datatypes.S k) ix).
  Proof.
    unfold Earley.earley_parse. change (add_delta_rules delta_mean (after delta_mean k ix)) with (after delta_mean (Datatypes.S k) ix).
    change (add_delta_rules delta_mean ix) with (after delta_mean 1 ix). rewrite (build_chart_same _ _ n text (after_same k ix)). reflexivity.
  Qed.

  (** ** the rule of a state is the first with its syntax *)
  Lemma enqueue_all_first (l : list cstate) : forall ch ch' p x, enqueue_all l ch = Ok ch' -> In x (states_at ch' p) ->
    In x (states_at ch p) \/
    (state_in x (states_at ch p) = false /\ s_end x = p /\
     exists l1 l2, l = l1 ++ x :: l2 /\ forall y, In y l1 -> s_end y = p -> ~ state_like x y).
  Proof.
    induction l as [|z l IH]; intros ch ch' p x H Hx; simpl in H; [inversion H; subst; auto|].
    apply obind_ok in H as (ch1 & H1 & H). assert (H1' := H1). apply enqueue_ok in H1 as (_ & _ & _ & _ & Ho & Hc).
    destruct (IH _ _ _ _ H Hx) as [Hold|(Hnew & Hp & l1 & l2 & -> & Hf)].
    - destruct (Nat.eq_dec p (s_end z)) as [->|Hn]; [|rewrite Ho in Hold; auto].
      destruct Hc as [(_ & ->)|(Hz & E)]; [auto|]. rewrite E in Hold. apply in_app_or in Hold as [Hold|[<-|[]]]; [auto|].
      right. split; [exact Hz|]. split; [reflexivity|]. exists [], l. split; [reflexivity|intros y []].
    - right. assert (HE : ext 0 ch ch1) by (eapply enqueue_ext; [|exact H1']; lia).
      split; [|split; [exact Hp|]].
      + destruct (state_in x (states_at ch p)) eqn:E; [|reflexivity]. rewrite (ext_state_in _ _ _ _ _ HE E) in Hnew. discriminate.
      + exists (z :: l1), l2. split; [reflexivity|]. intros y [<-|Hy] Hyp; [|auto].
        intros HL. assert (state_in x (states_at ch1 p) = true); [|congruence].
        assert (Hz : state_in z (states_at ch1 p) = true).
        { rewrite <- Hyp. destruct Hc as [(Hz & ->)|(_ & ->)]; [exact Hz|]. apply state_in_iff. exists z. split; [apply in_or_app; right; left; reflexivity|apply state_like_refl]. }
        apply state_in_iff in Hz as (z' & Hz' & Hl'). apply state_in_iff. exists z'. split; [exact Hz'|]. eapply state_like_trans; eassumption.
  Qed.

  Definition first_in (l : list rule) (r : rule) : Prop := exists l1 l2, l = l1 ++ r :: l2 /\ forall r', In r' l1 -> ~ same_syntax r r'.
  Definition shown (ix : gindex S) (r : rule) : Prop :=
    r = gamma \/ (exists c n, first_in (find_rules ix c n) r) \/ (exists c w m, r = scanned_rule c w m /\ k_type c <> PRelation).

  Lemma map_split {A B} (f : A -> B) l : forall l1 x l2, map f l = l1 ++ x :: l2 ->
    exists m1 a m2, l = m1 ++ a :: m2 /\ l1 = map f m1 /\ x = f a.
  Proof.
    induction l as [|a l IH]; intros [|y l1] x l2 H; simpl in H; try discriminate.
    - injection H as <- _. exists [], a, l. auto.
    - injection H as <- H. apply IH in H as (m1 & b & m2 & -> & -> & ->). exists (a :: m1), b, m2. auto.
  Qed.

  Lemma step_shown ix i ch s ch' : (forall p x, In x (states_at ch p) -> s_end x = p /\ shown ix (s_rule x)) -> In s (states_at ch i) ->
    step ix i ch s = Ok ch' -> forall p x, In x (states_at ch' p) -> s_end x = p /\ shown ix (s_rule x).
  Proof.
    intros Hall Hs H p x Hx. destruct (Hall _ _ Hs) as [He _]. apply step_successors in H as (l & Hl & H). unfold successors in Hl.
    destruct (is_complete s).
    - subst l. destruct (enqueue_all_only _ _ _ _ _ H Hx) as [Hold|[Hin Hp]]; [apply Hall; exact Hold|]. split; [exact Hp|].
      apply in_map_iff in Hin as (w & <- & Hw). apply filter_In in Hw as [Hw _]. simpl. now apply (Hall _ _ Hw).
    - destruct Hl as (c & l2 & _ & -> & H2). rewrite enqueue_all_app in H. apply obind_ok in H as (ch1 & H1 & H).
      destruct (enqueue_all_only _ _ _ _ _ H Hx) as [Hmid|[Hin Hp]].
      + destruct (enqueue_all_first _ _ _ _ _ H1 Hmid) as [Hold|(_ & Hp & l1 & l3 & E & Hf)]; [now apply Hall|]. split; [exact Hp|].
        unfold predicted in E. apply map_split in E as (m1 & r & m2 & E & -> & ->). simpl in Hp |- *.
        right. left. exists (k_pred c), (length (k_args c)). exists m1, m2. split; [exact E|]. intros r' Hr' Hsyn.
        apply (Hf (mkState r' 1 (s_end s) (s_end s))).
        * apply in_map_iff. exists r'. auto.
        * exact Hp.
        * unfold state_like. simpl. auto.
      + split; [exact Hp|]. destruct (Nat.ltb _ _); [|subst; contradiction]. apply (scanned_spec _ _ _ _ _ _ x H2) in Hin as (w & m & Hsc & ->). simpl.
        right. right. exists c, w, m. split; [reflexivity|]. destruct Hsc as [(T & _)|(T & _)]; congruence.
  Qed.
  Lemma build_shown ix n text ch : build_chart n ix text = Ok ch -> forall p x, In x (states_at ch p) -> s_end x = p /\ shown ix (s_rule x).
  Proof.
    apply (build_chart_inv scan_mean gamma_mean re_match ix (fun ch => forall p x, In x (states_at ch p) -> s_end x = p /\ shown ix (s_rule x))).
    - intros i c s c' Hc Hs Hst. eapply step_shown; eassumption.
    - intros ch0 H0. apply start_chart in H0 as (S1 & S2 & _).
      intros [|p] s Hs; [rewrite S1 in Hs; destruct Hs as [<-|[]]; split; [reflexivity|left; reflexivity]|rewrite S2 in Hs by lia; contradiction].
  Qed.

  (** the rules of the nodes of a tree *)
  Inductive in_tree (r : rule) : tree -> Prop :=
  | in_tree_here cat ts form : in_tree r (Node cat ts form r)
  | in_tree_below cat t ts form r' : In t ts -> in_tree r t -> in_tree r (Node cat ts form r').

  Lemma tree_of_shown ix (ch : chart) : (forall e s, completed_at ch e s -> shown ix (s_rule s)) ->
    forall s t, tree_of ch s t -> shown ix (s_rule s) -> forall r, in_tree r t -> shown ix r.
  Proof.
    intros Hc. apply (tree_of_ind' ch (fun s t => shown ix (s_rule s) -> forall r, in_tree r t -> shown ix r)).
    - intros s c cs _ _ Hs r Hr. inversion Hr; subst; [exact Hs|contradiction].
    - intros s sts ts _ HC HF IH Hs r Hr. inversion Hr as [|cat t ts' form r' Hin Ht]; subst; [exact Hs|].
      clear Hr Hs HF. revert ts IH Hin. induction HC as [|c cs i j k' x sts Hat _ _ _ HC IHC]; intros ts IH Hin; inversion IH as [|? y ? ts' Hy HF']; subst; [contradiction|].
      destruct Hin as [->|Hin]; [apply Hy; [eapply Hc; exact Hat|exact Ht]|]. eapply IHC; eassumption.
  Qed.

  (** ** in terms of the rules of the grammar *)
  Lemma flat_map_split {A B} (f : A -> list B) l : forall l1 r l2, flat_map f l = l1 ++ r :: l2 ->
    exists m1 a m2, l = m1 ++ a :: m2 /\ In r (f a) /\ forall x, In x m1 -> incl (f x) l1.
  Proof.
    induction l as [|a l IH]; intros l1 r l2 H; simpl in H; [destruct l1; discriminate|].
    assert (Hcase : (exists t, f a = l1 ++ r :: t) \/ (exists t, l1 = f a ++ t /\ flat_map f l = t ++ r :: l2)).
    { clear IH. revert l1 H. induction (f a) as [|y fa IHf]; intros l1 H; simpl in H.
      - right. exists l1. auto.
      - destruct l1 as [|z l1]; simpl in H.
        + injection H as -> _. left. exists fa. reflexivity.
        + injection H as -> H. destruct (IHf _ H) as [(t & ->)|(t & -> & E)]; [left; exists t; reflexivity|right; exists t; auto]. }
    destruct Hcase as [(t & E)|(t & -> & E)].
    - exists [], a, l. split; [reflexivity|]. split; [rewrite E; apply in_or_app; right; left; reflexivity|intros x []].
    - apply IH in E as (m1 & b & m2 & -> & Hb & Hm). exists (a :: m1), b, m2. split; [reflexivity|]. split; [exact Hb|].
      intros x [<-|Hx]; [apply incl_appl, incl_refl|apply incl_appr; auto].
  Qed.
  Lemma filter_split {A} (p : A -> bool) l : forall l1 a l2, filter p l = l1 ++ a :: l2 ->
    exists m1 m2, l = m1 ++ a :: m2 /\ filter p m1 = l1.
  Proof.
    induction l as [|x l IH]; intros l1 a l2 H; simpl in H; [destruct l1; discriminate|]. destruct (p x) eqn:E.
    - destruct l1 as [|y l1]; simpl in H; injection H as -> H.
      + exists [], l. auto.
      + apply IH in H as (m1 & m2 & -> & <-). exists (y :: m1), m2. split; [reflexivity|]. simpl. now rewrite E.
    - apply IH in H as (m1 & m2 & -> & <-). exists (x :: m1), m2. split; [reflexivity|]. simpl. now rewrite E.
  Qed.

  Definition written_alike (a b : rule) : Prop := g_ante a = g_ante b /\ g_cons a = g_cons b /\ g_hash a = g_hash b.

  Lemma first_rule rules c n r : first_in (find_rules (grammar_rules rules) c n) r ->
    exists A r0 B, rules = A ++ r0 :: B /\ rule_variant r0 r /\ forall r1, In r1 A -> ~ written_alike r1 r0.
  Proof.
    intros (l1 & l2 & E & Hf). rewrite find_rules_spec in E. apply flat_map_split in E as (m1 & r0 & m2 & E & Hr & Hm).
    assert (Hk : has_key c n r0 = true). { apply (filter_In (has_key c n) r0 rules). rewrite E. apply in_or_app. right. left. reflexivity. }
    apply filter_split in E as (A & B & -> & E). exists A, r0, B. split; [reflexivity|]. apply variants_spec in Hr. split; [exact Hr|].
    intros r1 H1 (W1 & W2 & W3).
    assert (Hin : In r1 m1). { rewrite <- E. apply filter_In. split; [exact H1|]. unfold has_key in *. now rewrite W1. }
    destruct Hr as (V1 & V2 & V3 & V4 & V5).
    set (r' := mkGRule (g_ante r1) (g_cons r) (g_mean r1) (g_boost r1) (g_hash r1)).
    assert (Hv : In r' (create_rule_variants r1)).
    { apply variants_spec. unfold rule_variant, r'. simpl. rewrite W2. repeat split; auto. }
    apply (Hf r'); [apply (Hm _ Hin); exact Hv|]. unfold r'. split; [simpl; congruence|]. simpl. split.
    - rewrite V1, W1. apply same_kind_refl.
    - clear. induction (g_cons r); constructor; auto. apply same_kind_refl.
  Qed.

  Theorem parse_first rules k n text roots ch :
    Forall proper_rule rules ->
    build_chart n (after delta_mean (Datatypes.S k) (grammar_rules rules)) text = Ok ch ->
    extract_tree_roots gamma_mean n ch = Ok roots ->
    forall t r, In t roots -> in_tree r t -> k_type (g_ante r) = PRelation ->
    exists A r0 B, rules = A ++ r0 :: B /\ rule_variant r0 r /\ forall r1, In r1 A -> ~ written_alike r1 r0.
  Proof.
    intros Hp Hb He t r Ht Hr HT.
    destruct (parse_sound scan_mean delta_mean gamma_mean re_match _ _ _ _ _ _ Hp Hb He t Ht) as (m & _ & HD).
    assert (Hg : in_grammar rules r).
    { clear -Hr HT HD. revert t r Hr HT HD.
      assert (HX : (forall c i j t, derives scan_mean re_match (in_grammar rules) text c i j t ->
                 forall r, in_tree r t -> k_type (g_ante r) = PRelation -> in_grammar rules r) /\
              (forall cs i j ts, derives_all scan_mean re_match (in_grammar rules) text cs i j ts ->
                 forall t r, In t ts -> in_tree r t -> k_type (g_ante r) = PRelation -> in_grammar rules r)).
      { apply derives_both.
        - intros c i w r T _ _ ((_ & _ & K) & _) r' Hr HT. inversion Hr; subst; [congruence|contradiction].
        - intros c i m0 w r T _ _ _ ((_ & _ & K) & _) r' Hr HT. inversion Hr; subst; [congruence|contradiction].
        - intros c i j r ts G _ _ IH r' Hr HT. inversion Hr; subst; [exact G|]. eapply IH; eassumption.
        - intros i t r [].
        - intros c cs i j k t ts _ IH1 _ IH2 t' r [<-|Hin] Hr HT; eauto. }
      intros t r Hr HT HD. eapply (proj1 HX); eassumption. }
    destruct (extract_spec gamma_mean _ _ _ He t Ht) as (cat & cat2 & more & more2 & form & form2 & r1 & r2 & HTree).
    pose proof (build_completed_ok _ _ _ _ _ _ _ Hb) as [_ Hc].
    pose proof (build_shown _ _ _ _ Hb) as Hsh.
    assert (Hs : shown (after delta_mean (Datatypes.S k) (grammar_rules rules)) r).
    { eapply tree_of_shown; [|exact HTree|left; reflexivity|].
      - intros e s Hes. destruct (Hc _ _ Hes) as [Hi _]. now apply (Hsh _ _ Hi).
      - eapply in_tree_below; [left; reflexivity|]. eapply in_tree_below; [left; reflexivity|exact Hr]. }
    pose proof (in_grammar_proper rules Hp _ Hg) as [[N1 N2] _].
    destruct Hs as [->|[(c & n' & Hfirst)|(c & w & m' & -> & Hty)]].
    - exfalso. apply N2. reflexivity.
    - destruct Hfirst as (l1 & l2 & E & Hf). rewrite find_rules_after in E.
      assert (Hd : forall x, In x (if String.eqb "delta" c && Nat.eqb 1 n' then concat (repeat (map (delta_rule delta_mean) (find_argument_counts (grammar_rules rules) "s")) (Datatypes.S k)) else []) -> k_pred (g_ante x) = "delta").
      { intros x Hx. destruct (_ && _); [|contradiction]. apply in_concat in Hx as (l & Hl & Hx). apply repeat_spec in Hl. subst l.
        apply in_map_iff in Hx as (j & <- & _). reflexivity. }
      match type of E with _ ++ ?d = _ => set (D := d) in * end.
      assert (Hbase : exists l2', find_rules (grammar_rules rules) c n' = l1 ++ r :: l2').
      { clear -E Hd N1. revert l1 E. induction (find_rules (grammar_rules rules) c n') as [|x l IH]; intros l1 E; simpl in E.
        - exfalso. apply N1. apply Hd. rewrite E. apply in_or_app. right. left. reflexivity.
        - destruct l1 as [|y l1]; simpl in E; injection E as -> E; [exists l; reflexivity|]. apply IH in E as (l2' & ->). exists l2'. reflexivity. }
      destruct Hbase as (l2' & E'). apply (first_rule rules c n'). exists l1, l2'. auto.
    - contradiction.
  Qed.
End History.

(** ** the furthest completed state *)
Section Errors.
  Context {S : Type}.
  Lemma last_in_spec (l : list (@cstate S)) : forall m,
    let m' := last_understood_in l m in
    m <= m' /\ (forall s, In s l -> is_complete s = true -> s_end s <= m') /\
    (m' = m \/ exists s, In s l /\ is_complete s = true /\ s_end s = m').
  Proof.
    induction l as [|s l IH]; intros m m'; simpl in m'; [split; [unfold m'; lia|split; [intros s []|left; reflexivity]]|].
    destruct (IH (if is_complete s && Nat.leb m (s_end s) then s_end s else m)) as (H1 & H2 & H3). fold m' in H1, H2, H3.
    destruct (is_complete s) eqn:Ec; simpl in *.
    - destruct (Nat.leb_spec m (s_end s)) as [Hle|Hgt].
      + split; [lia|]. split; [intros x [<-|Hx] Hc; auto|]. destruct H3 as [H3|(x & Hx & Hc & He)]; right; [exists s; auto|exists x; auto].
      + split; [lia|]. split; [intros x [<-|Hx] Hc; [lia|auto]|]. destruct H3 as [H3|(x & Hx & Hc & He)]; [left; auto|right; exists x; auto].
    - split; [lia|]. split; [intros x [<-|Hx] Hc; [congruence|auto]|]. destruct H3 as [H3|(x & Hx & Hc & He)]; [left; auto|right; exists x; auto].
  Qed.
  Lemma last_fold_spec (ls : list (list (@cstate S))) : forall m,
    let m' := fold_left (fun last1 l => last_understood_in l last1) ls m in
    m <= m' /\ (forall l s, In l ls -> In s l -> is_complete s = true -> s_end s <= m') /\
    (m' = m \/ exists l s, In l ls /\ In s l /\ is_complete s = true /\ s_end s = m').
  Proof.
    induction ls as [|l ls IH]; intros m m'; simpl in m'; [split; [unfold m'; lia|split; [intros l s []|left; reflexivity]]|].
    destruct (IH (last_understood_in l m)) as (H1 & H2 & H3). fold m' in H1, H2, H3.
    destruct (last_in_spec l m) as (L1 & L2 & L3). split; [lia|]. split.
    - intros l' s [<-|Hl] Hs Hc; [specialize (L2 s Hs Hc); lia|eauto].
    - destruct H3 as [H3|(l' & s & Hl & Hs & Hc & He)]; [|right; exists l', s; split; [right; exact Hl|auto]]. destruct L3 as [L3|(s & Hs & Hc & He)]; [left; lia|].
      right. exists l, s. split; [left; reflexivity|]. split; [exact Hs|]. split; [exact Hc|lia].
  Qed.

  (** [m] is the furthest position where a constituent ends *)
  Definition furthest (ch : @chart S) (m : nat) : Prop :=
    (forall p s, In s (states_at ch p) -> is_complete s = true -> s_end s <= m) /\
    (m = 0 \/ exists p s, In s (states_at ch p) /\ is_complete s = true /\ s_end s = m).
  Lemma last_understood_furthest (ch : @chart S) : furthest ch (last_understood ch).
  Proof.
    destruct (last_fold_spec (rev (ch_states ch)) 0) as (_ & H2 & H3). split.
    - intros p s Hs Hc. apply (H2 (states_at ch p) s); auto. rewrite <- in_rev. unfold states_at in *.
      destruct (nth_in_or_default p (ch_states ch) []) as [H|H]; [exact H|]. rewrite H in Hs. contradiction.
    - destruct H3 as [H3|(l & s & Hl & Hs & Hc & He)]; [left; exact H3|]. right. rewrite <- in_rev in Hl.
      apply (In_nth _ _ []) in Hl as (p & _ & E). exists p, s. unfold states_at. rewrite E. auto.
  Qed.
End Errors.

(** ** stable sorting *)
Section Sorting.
  Context {A : Type}.
  Lemma sort_insert_perm (key : A -> Z) x l : Permutation (sort_insert key x l) (x :: l).
  Proof.
    induction l as [|y l IH]; simpl; [apply Permutation_refl|]. destruct (key x <=? key y)%Z; [apply Permutation_refl|].
    eapply perm_trans; [apply perm_skip; exact IH|apply perm_swap].
  Qed.
  Lemma stable_sort_perm (key : A -> Z) l : Permutation (stable_sort key l) l.
  Proof. induction l as [|x l IH]; simpl; [constructor|]. eapply perm_trans; [apply sort_insert_perm|now apply perm_skip]. Qed.

  Definition by_key (key : A -> Z) (R : A -> A -> Prop) (a b : A) : Prop := (key a < key b)%Z \/ (key a = key b /\ R a b).
  Lemma sort_insert_sorted key R x l : Forall (R x) l -> StronglySorted (by_key key R) l -> StronglySorted (by_key key R) (sort_insert key x l).
  Proof.
    intros HF HS. induction HS as [|y l HS IH Hy]; simpl; [repeat constructor|].
    inversion HF as [|? ? Hxy HFl]; subst. destruct (Z.leb_spec (key x) (key y)) as [Hle|Hgt].
    - constructor; [constructor; assumption|]. constructor.
      + unfold by_key. destruct (Z.eq_dec (key x) (key y)); [right; auto|left; lia].
      + rewrite Forall_forall in *. intros z Hz. specialize (Hy z Hz). specialize (HFl z Hz). unfold by_key in *.
        destruct (Z.eq_dec (key x) (key z)); [right; auto|left; lia].
    - constructor; [apply IH; exact HFl|]. eapply Permutation_Forall; [apply Permutation_sym, sort_insert_perm|].
      constructor; [left; lia|exact Hy].
  Qed.
  Lemma stable_sort_sorted key R l : StronglySorted R l -> StronglySorted (by_key key R) (stable_sort key l).
  Proof.
    induction 1 as [|x l HS IH Hx]; simpl; [constructor|]. apply sort_insert_sorted; [|exact IH].
    eapply Permutation_Forall; [apply Permutation_sym, stable_sort_perm|exact Hx].
  Qed.
  (** elements for which the test agrees with the key keep their order *)
  Lemma sort_insert_filter key (p : A -> bool) x l : (forall a b, p a = true -> p b = true -> key a = key b) ->
    filter p (sort_insert key x l) = filter p (x :: l).
  Proof.
    intros Hp. induction l as [|y l IH]; [reflexivity|]. cbn [sort_insert]. destruct (Z.leb_spec (key x) (key y)) as [Hle|Hgt]; [reflexivity|].
    cbn [filter] in *. rewrite IH. destruct (p x) eqn:Ex, (p y) eqn:Ey; auto. pose proof (Hp _ _ Ex Ey). lia.
  Qed.
  Lemma stable_sort_filter key (p : A -> bool) l : (forall a b, p a = true -> p b = true -> key a = key b) ->
    filter p (stable_sort key l) = filter p l.
  Proof.
    intros Hp. induction l as [|x l IH]; [reflexivity|]. cbn [stable_sort]. rewrite sort_insert_filter by exact Hp. cbn [filter]. now rewrite IH.
  Qed.
End Sorting.
