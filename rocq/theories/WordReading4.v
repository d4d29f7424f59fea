(** * The first tree of a sentence, found by looking at the kinds of its words *)

From Coq Require Import ZArith String Ascii List Bool Arith Lia.
From Verif Require Import Py Effects EffectsFacts Grammar Earley ParserSpec ParserFacts GrammarProofs EarleyProofs EarleyProofs3 EarleyProofs4 EarleyProofs5 EarleyProofs6 PropParser PropRegex LexerProofs Regex RegexProofs2
  InferenceModule Composer ComposerProofs2 QuestionSystem PropSystem FragmentModel SirSpec SirProofs WikidataProofs3 WordReading WordReading2 WordReading3.
Import ListNotations.
Local Open Scope nat_scope.
Local Open Scope string_scope.
Local Open Scope list_scope.

Definition variants_of (grammar : list crule) : list crule := flat_map create_rule_variants grammar.
Lemma variants_listed (grammar : list crule) r : in_grammar grammar r <-> In r (variants_of grammar).
Proof.
  unfold in_grammar, variants_of. rewrite in_flat_map. split; intros (r0 & H0 & V); exists r0; split; auto; now apply (proj1 (variants_spec r0)).
Qed.

(** ** grammars of words, by computation *)
Definition plain_name (s : string) : bool := negb (String.eqb s "delta") && negb (String.eqb s "gamma").
Definition proper_b (r : crule) : bool :=
  plain_name (k_pred (g_ante r)) &&
  forallb (fun c => (negb (ptype_eqb (k_type c) PRelation) || plain_name (k_pred c)) && negb (String.eqb (hd "" (k_args c)) "terminal")) (g_cons r).
Definition word_rule_b (rank : string -> nat -> nat) (r : crule) : bool :=
  match unspread (g_cons r) with Some cs => forallb readable_b cs | None => false end &&
  ptype_eqb (k_type (g_ante r)) PRelation && Z.eqb (g_boost r) 0 &&
  match g_cons r with
  | [c] => negb (ptype_eqb (k_type c) PRelation) || Nat.ltb (rank (k_pred c) (length (k_args c))) (rank (k_pred (g_ante r)) (length (k_args (g_ante r))))
  | _ => true
  end.
Definition word_grammar_b (grammar : list crule) (rank : string -> nat -> nat) : bool :=
  forallb proper_b grammar && forallb (word_rule_b rank) (variants_of grammar).
Definition table_of (rules : list crule) : list (constituent * list constituent) :=
  map (fun r => (g_ante r, match unspread (g_cons r) with Some cs => cs | None => [] end)) rules.
(** the quoted words *)
Definition quotes_of (table : list (constituent * list constituent)) : list string :=
  flat_map (fun p => map k_pred (filter (fun c => ptype_eqb (k_type c) PWord) (snd p))) table.

Lemma plain_name_ok s : plain_name s = true -> s <> "delta" /\ s <> "gamma".
Proof. unfold plain_name. rewrite andb_true_iff, !negb_true_iff, !String.eqb_neq. auto. Qed.
Lemma proper_ok r : proper_b r = true -> proper_rule r.
Proof.
  unfold proper_b. rewrite andb_true_iff. intros (H1 & H2). apply plain_name_ok in H1. constructor; [exact H1|]. intros c Hc. rewrite forallb_forall in H2. specialize (H2 c Hc).
  apply andb_true_iff in H2 as (H2 & H3). split.
  - intros T. rewrite T in H2. cbn [ptype_eqb negb orb] in H2. apply plain_name_ok in H2 as (A & B). auto.
  - rewrite negb_true_iff, String.eqb_neq in H3. exact H3.
Qed.
Lemma spread_unspread l cs : spread_of l cs -> unspread l = Some cs.
Proof. induction 1 as [c|c s l cs Hp Ht _ IH]; [reflexivity|]. cbn [unspread]. rewrite Hp, Ht, IH. reflexivity. Qed.
Lemma spread_in l cs c : spread_of l cs -> In c l -> In c cs \/ (k_pred c = " " /\ k_type c = PWord).
Proof.
  induction 1 as [c'|c' s l cs Hp Ht _ IH]; [intros [<-|[]]; left; now left|]. intros [<-|[<-|H]]; [left; now left|now right|]. destruct (IH H) as [H'|H']; [left; now right|now right].
Qed.
Section Grammar.
  Variable grammar : list crule.
  Variable rank : string -> nat -> nat.
  Hypothesis Hok : word_grammar_b grammar rank = true.
  Notation rules := (variants_of grammar).
  Notation table := (table_of rules).

  Lemma rule_ok r : In r rules -> exists cs, spread_of (g_cons r) cs /\ Forall readable cs /\ k_type (g_ante r) = PRelation /\ g_boost r = 0%Z /\
    (forall c, g_cons r = [c] -> k_type c = PRelation -> rank (k_pred c) (length (k_args c)) < rank (k_pred (g_ante r)) (length (k_args (g_ante r)))).
  Proof.
    intros Hr. apply andb_true_iff in Hok as (_ & H). rewrite forallb_forall in H. specialize (H r Hr). unfold word_rule_b in H.
    rewrite !andb_true_iff in H. destruct H as (((H1 & H2) & H3) & H4). destruct (unspread (g_cons r)) as [cs|] eqn:E; [|discriminate H1].
    exists cs. split; [now apply (unspread_ok (length (g_cons r)))|]. split; [apply Forall_forall; intros c Hc; rewrite forallb_forall in H1; now apply readable_b_ok, H1|].
    split; [now apply ptype_eqb_eq|]. split; [now apply Z.eqb_eq|]. intros c Ec T. rewrite Ec, T in H4. cbn [ptype_eqb negb orb] in H4. now apply Nat.ltb_lt.
  Qed.
  Lemma grammar_proper : Forall proper_rule grammar.
  Proof. apply andb_true_iff in Hok as (H & _). rewrite forallb_forall in H. apply Forall_forall. intros r Hr. now apply proper_ok, H. Qed.
  Lemma grammar_solid r : in_grammar grammar r -> solid r /\ k_type (g_ante r) = PRelation.
  Proof.
    intros Hr. apply (proj1 (variants_listed grammar r)) in Hr. destruct (rule_ok r Hr) as (cs & Hs & Hrd & Ha & _). split; [|exact Ha]. split.
    - intros E. rewrite E in Hs. inversion Hs.
    - intros c Hc T. destruct (spread_in _ _ c Hs Hc) as [H|(-> & _)]; [|discriminate]. rewrite Forall_forall in Hrd. specialize (Hrd c H). unfold readable in Hrd. rewrite T in Hrd. apply Hrd.
  Qed.
  Lemma grammar_patterns : patterns_ok py_match (in_grammar grammar).
  Proof.
    intros r c Hr Hc T s. apply (proj1 (variants_listed grammar r)) in Hr. destruct (rule_ok r Hr) as (cs & Hs & Hrd & _).
    destruct (spread_in _ _ c Hs Hc) as [H|(_ & T')]; [|congruence]. rewrite Forall_forall in Hrd. specialize (Hrd c H). unfold readable in Hrd. rewrite T in Hrd. rewrite Hrd.
    unfold py_match. rewrite word_compiled. eauto.
  Qed.
  Lemma grammar_acyclic : acyclic_units grammar rank.
  Proof. intros r c Hr. apply (proj1 (variants_listed grammar r)) in Hr. destruct (rule_ok r Hr) as (cs & _ & _ & _ & _ & H). apply H. Qed.
  Lemma table_nth k r cs : nth_error rules k = Some r -> spread_of (g_cons r) cs -> nth_error table k = Some (g_ante r, cs).
  Proof. intros Hk Hs. unfold table_of. rewrite nth_error_map, Hk. cbn [option_map]. now rewrite (spread_unspread _ _ Hs). Qed.
  Lemma table_from k a cs : nth_error table k = Some (a, cs) -> exists r, nth_error rules k = Some r /\ g_ante r = a /\ spread_of (g_cons r) cs /\ Forall readable cs.
  Proof.
    unfold table_of. rewrite nth_error_map. destruct (nth_error rules k) as [r|] eqn:E; [|discriminate]. cbn [option_map]. intros [= <- <-]. exists r.
    destruct (rule_ok r (nth_error_In _ _ E)) as (cs & Hs & Hrd & _). rewrite (spread_unspread _ _ Hs). auto.
  Qed.
  Lemma table_quotes k a cs c : nth_error table k = Some (a, cs) -> In c cs -> k_type c = PWord -> In (k_pred c) (quotes_of table).
  Proof.
    intros Hk Hc T. unfold quotes_of. apply in_flat_map. exists (a, cs). split; [now apply nth_error_In in Hk|]. cbn [snd]. apply in_map, filter_In. split; [exact Hc|now rewrite T].
  Qed.
End Grammar.

(** ** kinds of words *)
Inductive kind : Type := Lit (w : string) | Name.
Definition kind_ok (k : kind) : bool := match k with Lit s => negb (String.eqb s "") && every_char not_blank s | Name => true end.
(** a word of the kind *)
Definition fits (quotes : list string) (k : kind) (u : string) : Prop :=
  match k with
  | Lit s => lower u = s
  | Name => u <> "" /\ every_char word_char u = true /\ ~ In (lower u) quotes
  end.
Section Kinds.
  Variable ks : list kind.
  Definition is_kind (i : nat) (q : string) : bool := match nth_error ks i with Some (Lit s) => String.eqb s q | _ => false end.
  Definition free_kind (i : nat) : bool := match nth_error ks i with Some (Lit s) => every_char word_char s | Some Name => true | None => false end.
End Kinds.
Definition word_at (us : list string) (i : nat) : string := nth i us "".

Lemma lower_word_char c : word_char (lower_ascii c) = word_char c.
Proof. destruct c as [b0 b1 b2 b3 b4 b5 b6 b7]. destruct b0, b1, b2, b3, b4, b5, b6, b7; reflexivity. Qed.
Lemma lower_words u : every_char word_char (lower u) = every_char word_char u.
Proof. induction u as [|c u IH]; [reflexivity|]. cbn. now rewrite lower_word_char, IH. Qed.
Lemma words_at us : map (word_at us) (seq 0 (length us)) = us.
Proof.
  apply nth_ext with (d := word_at us 0) (d' := ""); [now rewrite map_length, seq_length|]. intros i Hi. rewrite map_length, seq_length in Hi.
  rewrite map_nth, seq_nth by exact Hi. reflexivity.
Qed.

(** ** the shape with the smallest number of free words *)
Fixpoint shape_eqb (a b : shape nat) : bool :=
  match a, b with
  | SWord x, SWord y => String.eqb x y
  | SToken x, SToken y => Nat.eqb x y
  | SNode k l, SNode k' l' => Nat.eqb k k' && (fix all (l l' : list (shape nat)) : bool :=
      match l, l' with [], [] => true | x :: t, y :: t' => shape_eqb x y && all t t' | _, _ => false end) l l'
  | _, _ => false
  end.
Lemma shape_eqb_eq : forall a b, shape_eqb a b = true -> a = b.
Proof.
  fix IH 1. intros [x|x|k l] [y|y|k' l'] H; cbn [shape_eqb] in H; try discriminate H.
  - apply String.eqb_eq in H. now subst.
  - apply Nat.eqb_eq in H. now subst.
  - apply andb_true_iff in H as (Hk & H). apply Nat.eqb_eq in Hk. subst k'. f_equal. revert l' H. induction l as [|x l IHl]; intros [|y l'] H; try discriminate H; [reflexivity|].
    apply andb_true_iff in H as (H1 & H2). f_equal; [now apply IH|now apply IHl].
Qed.
Definition only_best (limit : nat) (table : list (constituent * list constituent)) (ks : list kind) (c : constituent) (s : shape nat) : bool :=
  match shapes (is_kind ks) (free_kind ks) table limit c (seq 0 (length ks)) with
  | Some l => match filter (fun s' => Nat.leb (tokens s') (tokens s)) l with [s'] => shape_eqb s' s | _ => false end
  | None => false
  end.
(** the rules for sentences are all for [c] *)
Definition start_b (table : list (constituent * list constituent)) (c : constituent) : bool :=
  String.eqb (k_pred c) "s" && ptype_eqb (k_type c) PRelation && forallb (fun p => negb (String.eqb (k_pred (fst p)) "s") || kind_eqb (fst p) c) table.

Section Sentence.
  Variable grammar : list crule.
  Variable rank : string -> nat -> nat.
  Hypothesis Hok : word_grammar_b grammar rank = true.
  Notation rules := (variants_of grammar).
  Notation table := (table_of rules).
  Variable c0 : constituent.
  Hypothesis Hstart : start_b table c0 = true.
  Notation past history := (after_parses scanned delta_meaning gamma_meaning py_match history (grammar_rules grammar)).

  Lemma reads_kind c c' us s t : same_kind c' c -> k_type c = PRelation -> reads rules c us s t -> reads rules c' us s t.
  Proof.
    intros (K1 & K2 & K3) T R. inversion R; subst; try congruence. rewrite <- K1. econstructor; eauto. destruct H0 as (A & B & C). repeat split; congruence.
  Qed.

  Lemma first_reading limit text us ks k ss : normalize text = spaced us -> us <> [] -> forallb kind_ok ks = true -> Forall2 (fits (quotes_of table)) ks us ->
    only_best limit table ks c0 (SNode k ss) = true ->
    exists N, forall fuel, N <= fuel -> forall history, exists res t ts,
      parse_with py_match fuel text (past history) = (Ok res, past (history ++ [(fuel, text)])) /\ Earley.pr_products res = t :: ts /\
      forall opt n, process opt t n = process opt (build rules c0 (shape_map (word_at us) (SNode k ss))) n.
  Proof.
    intros Etext Nu Hks Hfit Hbest. set (s0 := SNode k ss) in *. destruct C79_patterns_in_grammar_rules as (Hre & _).
    pose proof (grammar_proper grammar rank Hok) as Gp. pose proof (grammar_solid grammar rank Hok) as Gs. pose proof (grammar_patterns grammar rank Hok) as Gpat. pose proof (grammar_acyclic grammar rank Hok) as Ga.
    assert (Hsol : Forall solid_word us).
    { clear - Hks Hfit. induction Hfit as [|kd u ks us Hf _ IH]; [constructor|]. cbn [forallb] in Hks. apply andb_true_iff in Hks as (Hk & Hks). constructor; [|now apply IH]. destruct kd as [s|].
      - cbn [fits] in Hf. subst s. cbn [kind_ok] in Hk. apply andb_true_iff in Hk as (H1 & H2). rewrite lower_blanks in H2. split; [|exact H2]. intros ->. discriminate H1.
      - destruct Hf as (H1 & H2 & _). split; [exact H1|]. exact (every_weaken _ _ u wordy_blank H2). }
    assert (Hkind : forall i kd, nth_error ks i = Some kd -> fits (quotes_of table) kd (word_at us i)).
    { clear - Hfit. intros i kd. revert i. induction Hfit as [|kd0 u ks us Hf _ IH]; intros [|i] H; try discriminate H; [injection H as <-; exact Hf|]. now apply (IH i). }
    assert (El : length ks = length us) by (clear - Hfit; induction Hfit; cbn; congruence).
    unfold start_b in Hstart. rewrite !andb_true_iff in Hstart. destruct Hstart as ((S1 & S2) & S3). apply String.eqb_eq in S1. apply ptype_eqb_eq in S2. rewrite forallb_forall in S3.
    assert (Hc0 : readable c0) by (unfold readable; now rewrite S2).
    unfold only_best in Hbest. destruct (shapes (is_kind ks) (free_kind ks) table limit c0 (seq 0 (length ks))) as [l|] eqn:Esh; [|discriminate Hbest].
    destruct (filter (fun s' => Nat.leb (tokens s') (tokens s0)) l) as [|s1 [|? ?]] eqn:Ef; try discriminate Hbest. apply shape_eqb_eq in Hbest. subst s1.
    assert (Hin : In s0 l). { assert (X : In s0 (filter (fun s' => Nat.leb (tokens s') (tokens s0)) l)) by (rewrite Ef; now left). now apply filter_In in X. }
    assert (Honly : forall s, In s l -> tokens s <= tokens s0 -> s = s0).
    { intros s Hs Ht. assert (X : In s (filter (fun s' => Nat.leb (tokens s') (tokens s0)) l)) by (apply filter_In; split; [exact Hs|now apply Nat.leb_le]). rewrite Ef in X. destruct X as [->|[]]. reflexivity. }
    (* every derivation is read *)
    assert (Hread : forall c t, k_pred c = "s" -> k_type c = PRelation -> derives scanned py_match (in_grammar grammar) (normalize text) c 0 (String.length (normalize text)) t ->
      total_boost t = 0%Z /\ exists s, In s l /\ regexp_nodes t = tokens s /\ reads rules c0 us (shape_map (word_at us) s) t).
    { intros c t Hc T D. rewrite Etext in D.
      destruct (sentence_read rules grammar (fun r => proj1 (variants_listed grammar r))
        (fun r Hr => let '(ex_intro _ cs (conj a (conj b _))) := rule_ok grammar rank Hok r Hr in ex_intro _ cs (conj a b))
        (fun r Hr => let '(ex_intro _ cs (conj _ (conj _ (conj a _)))) := rule_ok grammar rank Hok r Hr in a)
        us c t Nu Hsol ltac:(unfold readable; now rewrite T) D) as (s & R).
      assert (K : same_kind c0 c).
      { inversion R as [| |c' ws k' r cs ss' ts Hk K Hs]; subst; try congruence. assert (Ht := table_nth grammar k' r cs Hk Hs). apply nth_error_In in Ht. specialize (S3 _ Ht). cbn [fst] in S3.
        destruct K as (K1 & K2 & K3). rewrite K1, Hc in S3. cbn in S3. apply kind_eqb_from in S3. destruct S3 as (A & B & C). repeat split; congruence. }
      apply (reads_kind c c0) in R; [|exact K|exact T].
      destruct (proj1 (reads_counted rules (fun r Hr => let '(ex_intro _ cs (conj _ (conj _ (conj _ (conj a _))))) := rule_ok grammar rank Hok r Hr in a)
        (fun r Hr => let '(ex_intro _ cs (conj _ (conj _ (conj a _)))) := rule_ok grammar rank Hok r Hr in a)) _ _ _ _ R) as (B & Nt).
      split; [exact B|].
      destruct (proj1 (reads_listed (is_kind ks) (free_kind ks) (word_at us) rules table (fun k r cs Hk Hs => table_nth grammar k r cs Hk Hs)
        (fun k r Hk => let '(ex_intro _ cs (conj _ (conj _ (conj a _)))) := rule_ok grammar rank Hok r (nth_error_In _ _ Hk) in a)
        (quotes_of table) (fun k a cs d Hk => table_quotes grammar k a cs d Hk) (seq 0 (length ks)) 
        ltac:(intros i q Hi Hq Hl; apply in_seq in Hi; unfold is_kind; destruct (nth_error ks i) as [[x|]|] eqn:Ei;
              [apply Hkind in Ei; cbn in Ei; subst x; rewrite Hl; apply String.eqb_refl|apply Hkind in Ei; cbn in Ei; destruct Ei as (_ & _ & Ei); rewrite Hl in Ei; contradiction|apply nth_error_None in Ei; lia])
        ltac:(intros i Hi Hw; apply in_seq in Hi; unfold free_kind; destruct (nth_error ks i) as [[x|]|] eqn:Ei;
              [apply Hkind in Ei; cbn in Ei; subst x; now rewrite lower_words|reflexivity|apply nth_error_None in Ei; lia]))
        _ _ _ _ R (seq 0 (length ks)) limit l ltac:(rewrite El; symmetry; apply words_at) (fun _ H => H) ltac:(congruence) Esh) as (s' & -> & Hs').
      exists s'. rewrite tokens_map in Nt. auto. }
    (* there is the one that is listed *)
    assert (Hthere : regexp_nodes (build rules c0 (shape_map (word_at us) s0)) = tokens s0 /\ derives scanned py_match (in_grammar grammar) (normalize text) c0 0 (String.length (normalize text)) (build rules c0 (shape_map (word_at us) s0))).
    { assert (Hfree : forall w, free_kind ks w = true -> word_at us w <> "" /\ every_char word_char (word_at us w) = true).
      { intros i Hi. unfold free_kind in Hi. destruct (nth_error ks i) as [[x|]|] eqn:Ei; try discriminate Hi.
        - rewrite forallb_forall in Hks. pose proof (Hks _ (nth_error_In _ _ Ei)) as Hx. apply Hkind in Ei. cbn in Ei. subst x. rewrite lower_words in Hi. split; [|exact Hi]. intros E. rewrite E in Hx. discriminate Hx.
        - apply Hkind in Ei. cbn in Ei. split; apply Ei. }
      assert (Hword : forall w q, is_kind ks w q = true -> lower (word_at us w) = q).
      { intros i q Hi. unfold is_kind in Hi. destruct (nth_error ks i) as [[x|]|] eqn:Ei; try discriminate Hi. apply String.eqb_eq in Hi. subst x. now apply Hkind in Ei. }
      destruct (listed_derives (is_kind ks) (free_kind ks) (word_at us) rules table (table_from grammar rank Hok) grammar (fun r => proj2 (variants_listed grammar r)) Hword Hfree (normalize text)
        limit c0 (seq 0 (length ks)) l s0 Hc0 Esh Hin) as (_ & Ct & H). split; [exact Ct|]. rewrite El, words_at in H. specialize (H 0 ""). rewrite app_nil_s in H. rewrite Etext in *. apply H; [reflexivity|now left]. }
    destruct Hthere as (E0 & Hthere).
    destruct (C64_parsing_ends_without_unit_cycles scanned delta_meaning gamma_meaning py_match grammar rank [] text Gp Hre Gpat Gs Ga) as (N & HN).
    exists N. intros fuel Hf history. set (g := past history). destruct (HN fuel Hf) as (res & Hres). cbn [after_parses fold_left] in Hres.
    assert (Hfst : fst (parse_with py_match fuel text g) = Ok res).
    { rewrite <- Hres. apply (C65_earlier_parses_do_not_matter scanned delta_meaning gamma_meaning py_match history fuel text (grammar_rules grammar)). }
    assert (Epar : parse_with py_match fuel text g = (Ok res, past (history ++ [(fuel, text)]))).
    { destruct (parse_with py_match fuel text g) as [o g'] eqn:E. cbn in Hfst. subst o. f_equal.
      unfold after_parses. rewrite fold_left_app. change (g' = snd (parse_with py_match fuel text g)). now rewrite E. }
    destruct (C62_every_derivation_is_found scanned delta_meaning gamma_meaning py_match grammar history fuel text res c0 _ Gp Hre Gs Hfst S1 S2 Hthere) as (t' & Ht' & Hst).
    assert (Hder : forall t, In t (Earley.pr_products res) -> exists c, k_pred c = "s" /\ k_type c = PRelation /\
      derives scanned py_match (in_grammar grammar) (normalize text) c 0 (String.length (normalize text)) t).
    { intros t Ht. apply (C61_trees_are_derivations scanned delta_meaning gamma_meaning py_match grammar history fuel text res t Gp Hre Hfst Ht). }
    pose proof Hfst as Hfst'. unfold g in Hfst'. rewrite after_parses_index in Hfst'. destruct (parse_ok _ _ _ _ _ _ _ _ _ Hfst') as (ch & roots & _ & _ & Esort).
    destruct (Earley.pr_products res) as [|t ts] eqn:Eprod; [destruct Ht'|]. exists res, t, ts. split; [exact Epar|]. split; [exact Eprod|].
    destruct (Hder t (or_introl eq_refl)) as (c & Hc & T & D). destruct (Hread c t Hc T D) as (B & s & Hs & Nt & R).
    destruct (Hder t' Ht') as (c' & Hc' & T' & D'). destruct (Hread c' t' Hc' T' D') as (B' & _).
    pose proof (first_is_best roots t ts t' (eq_sym Esort)) as Hbest. rewrite <- Esort in Hbest. specialize (Hbest Ht' B B').
    rewrite <- (same_tree_regexps _ _ Hst) in Hbest.
    assert (Es : s = s0) by (apply Honly; [exact Hs|lia]). subst s. intros opt n. exact (reads_process rules c0 us k _ t R opt n).
  Qed.
End Sentence.
