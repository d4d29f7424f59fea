(** * Properties C60-C72: parsing *)

From Coq Require Import ZArith String Ascii List Bool Arith Lia Permutation Sorted.
From Verif Require Import Py Effects Grammar Earley ParserSpec GrammarProofs EarleyProofs EarleyProofs2 EarleyProofs3
  EarleyProofs4 EarleyProofs5 EarleyProofs6 EarleyProofs7 ParserFacts.
Import ListNotations.
Local Open Scope string_scope.
Local Open Scope list_scope.

(** ** C60 *)

(** [squeezed text r] (ParserFacts.v): [r] is [text] with every maximal run of
    whitespace replaced by one space. *)
Theorem C60_whitespace_runs_become_one_space :
  forall text r, squeezed text r <-> r = normalize text.
Proof.
  intros text r. split; [apply squeezed_unique|]. intros ->. apply (squeeze_spec text).
Qed.
Print Assumptions C60_whitespace_runs_become_one_space.

(** no two adjacent whitespace characters, no whitespace but the space *)
Theorem C60_only_single_spaces :
  forall text a b c d, normalize text = append a (String c (String d b)) ->
    (space c -> c = " "%char) /\ (space c -> ~ space d).
Proof.
  intros text a b c d E. pose proof (squeeze_tight text false) as H. unfold normalize in E. rewrite E in H. clear E.
  assert (HG : exists b0, tight b0 (append a (String c (String d b)))) by eauto. clear H. destruct HG as [b0 H]. revert b0 H.
  induction a as [|x a IH]; intros b0 H.
  - cbn [append tight] in H. destruct H as [H1 [H2 _]]. split; [intros Hc; apply (proj1 (H1 Hc))|].
    intros Hc Hd. destruct (H2 Hd) as [_ E]. unfold space in Hc. congruence.
  - cbn [append tight] in H. destruct H as [_ H]. eapply IH; exact H.
Qed.
Print Assumptions C60_only_single_spaces.

Theorem C60_normalising_twice_changes_nothing : forall text, normalize (normalize text) = normalize text.
Proof. intros text. apply tight_squeeze. apply squeeze_tight. Qed.
Print Assumptions C60_normalising_twice_changes_nothing.

Theorem C60_other_characters_are_kept : forall text, visible (normalize text) = visible text.
Proof. intros text. apply squeeze_visible. Qed.
Print Assumptions C60_other_characters_are_kept.

(** the whitespace characters below 256: tab, line feed, vertical tab, form feed,
    carriage return, the four separators, space, next line and no-break space *)
Theorem C60_whitespace_characters : forall c, space c <->
  In c ["009"; "010"; "011"; "012"; "013"; "028"; "029"; "030"; "031"; " "; "133"; "160"]%char.
Proof.
  intros c. unfold space. split.
  - intros H. destruct c as [[|] [|] [|] [|] [|] [|] [|] [|]]; vm_compute in H; try discriminate H; vm_compute; tauto.
  - intros H. cbn [In] in H. repeat (destruct H as [<-|H]; [reflexivity|]). destruct H.
Qed.
Print Assumptions C60_whitespace_characters.

(** ** C68, which letters have a lower case: A to Z, and the accented capitals *)
Theorem C68_letters_with_a_lower_case : forall c,
  let n := nat_of_ascii c in
  let capital := 65 <= n <= 90 \/ (192 <= n <= 222 /\ n <> 215) in
  (capital -> nat_of_ascii (lower_ascii c) = n + 32) /\ (~ capital -> lower_ascii c = c).
Proof.
  intros c. cbv zeta. unfold lower_ascii. cbv zeta.
  destruct (Nat.leb_spec 65 (nat_of_ascii c)), (Nat.leb_spec (nat_of_ascii c) 90), (Nat.leb_spec 192 (nat_of_ascii c)),
    (Nat.leb_spec (nat_of_ascii c) 222), (Nat.eqb_spec (nat_of_ascii c) 215); cbn [andb orb negb];
    (split; intros Hc; [try lia; apply nat_ascii_embedding; lia|try reflexivity; lia]).
Qed.
Print Assumptions C68_letters_with_a_lower_case.

Example C60_example :
  normalize (append "  who is" (String (ascii_of_nat 9) (String (ascii_of_nat 10) "Mary?"))) = " who is Mary?" /\
  squeezed (append "a" (String (ascii_of_nat 9) " b")) "a b".
Proof. split; [reflexivity|]. apply C60_whitespace_runs_become_one_space. reflexivity. Qed.

Section Parsing.
  Context {S : Type}.
  Variable scan_mean : option string -> S.
  Variable delta_mean gamma_mean : S.
  Variable re_match : string -> string -> outcome (option string).
  Notation parse := (parser_process scan_mean delta_mean gamma_mean re_match).
  Notation derivation rules text := (derives scan_mean re_match (in_grammar rules) text).
  Notation tree := (@tree S).

  (** the grammar after some texts were parsed, each with some amount of fuel *)
  Definition after_parses (history : list (nat * string)) (ix : gindex S) : gindex S :=
    fold_left (fun ix h => snd (parse (fst h) (snd h) ix)) history ix.

  Lemma parse_state n text (ix : gindex S) : snd (parse n text ix) = add_delta_rules delta_mean ix.
  Proof. unfold parser_process, earley_parse. destruct (obind _ _); reflexivity. Qed.
  Lemma after_parses_after history : forall k (ix : gindex S),
    after_parses history (after delta_mean k ix) = after delta_mean (length history + k) ix.
  Proof.
    induction history as [|h history IH]; intros k ix; [reflexivity|]. unfold after_parses in *. cbn [fold_left length].
    rewrite parse_state. change (add_delta_rules delta_mean (after delta_mean k ix)) with (after delta_mean (Datatypes.S k) ix).
    rewrite IH. f_equal. lia.
  Qed.
  Lemma after_parses_index history (ix : gindex S) : after_parses history ix = after delta_mean (length history) ix.
  Proof. rewrite <- (Nat.add_0_r (length history)), <- after_parses_after. reflexivity. Qed.

  Lemma parse_ok n text k rules r :
    fst (parse n text (after delta_mean k (grammar_rules rules))) = Ok r ->
    exists ch roots, build_chart scan_mean gamma_mean re_match n (after delta_mean (Datatypes.S k) (grammar_rules rules)) (normalize text) = Ok ch /\
      extract_tree_roots gamma_mean n ch = Ok roots /\ pr_products r = sort_trees roots.
  Proof.
    unfold parser_process, earley_parse. cbn [after].
    destruct (build_chart _ _ _ _ _ _) as [ch| |]; cbn [obind fst]; try discriminate.
    destruct (extract_tree_roots _ _ _) as [roots| |] eqn:Er; cbn [obind fst]; try discriminate.
    intros H. exists ch, roots. split; [reflexivity|]. split; [exact Er|].
    injection H as <-. cbn [pr_products]. destruct roots; [|reflexivity]. destruct (negb _); [reflexivity|]. destruct (Nat.eqb _ _); reflexivity.
  Qed.
  Lemma sort_trees_perm (l : list tree) : Permutation (sort_trees l) l.
  Proof. unfold sort_trees. do 2 (eapply perm_trans; [apply stable_sort_perm|]). apply stable_sort_perm. Qed.
  Lemma in_sort_trees (l : list tree) t : In t (sort_trees l) <-> In t l.
  Proof. split; apply Permutation_in; [apply sort_trees_perm|apply Permutation_sym, sort_trees_perm]. Qed.

  (** ** C61 *)

  (** [proper_rule] (EarleyProofs3.v): the rule has no antecedent [gamma] or
      [delta], no consequent of that name, and no consequent whose first
      variable is called [terminal].  [re_ok]: what [re.match] returns is at
      the start of the text.  The parser may have parsed other texts before. *)
  Theorem C61_trees_are_derivations :
    forall rules history n text r t,
      Forall proper_rule rules -> re_ok re_match ->
      fst (parse n text (after_parses history (grammar_rules rules))) = Ok r ->
      In t (pr_products r) ->
      (exists c, k_pred c = "s" /\ k_type c = PRelation /\
         derivation rules (normalize text) c 0 (String.length (normalize text)) t) /\
      lower (spell t) = lower (normalize text).
  Proof.
    intros rules history n text r t Hp Hre H Ht. rewrite after_parses_index in H.
    destruct (parse_ok _ _ _ _ _ H) as (ch & roots & Hb & He & Hr). rewrite Hr in Ht. apply (proj1 (in_sort_trees _ _)) in Ht.
    destruct (parse_sound scan_mean delta_mean gamma_mean re_match _ _ _ _ _ _ Hp Hb He t Ht) as (m & _ & HD).
    split; [eexists; split; [|split; [|exact HD]]; reflexivity|].
    destruct (proj1 (derives_spells scan_mean re_match (in_grammar rules) (normalize text) Hre) _ _ _ _ HD) as (_ & _ & E).
    rewrite E, Nat.sub_0_r. f_equal. cbn [drop]. generalize (normalize text). induction s; simpl; congruence.
  Qed.

  (** ** C62 *)

  (** [solid]: no empty rules or words.  [same_tree]: the same but for rules
      that are written in the same way. *)
  Theorem C62_every_derivation_is_found :
    forall rules history n text r c t,
      Forall proper_rule rules -> re_ok re_match ->
      (forall r, in_grammar rules r -> solid r /\ k_type (g_ante r) = PRelation) ->
      fst (parse n text (after_parses history (grammar_rules rules))) = Ok r ->
      k_pred c = "s" -> k_type c = PRelation ->
      derivation rules (normalize text) c 0 (String.length (normalize text)) t ->
      exists t', In t' (pr_products r) /\ same_tree t t'.
  Proof.
    intros rules history n text r c t Hp Hre Hplain H Hc Hct HD. rewrite after_parses_index in H.
    destruct (parse_ok _ _ _ _ _ H) as (ch & roots & Hb & He & Hr). rewrite Hr.
    assert (Hargs : In (length (k_args c)) (find_argument_counts (grammar_rules rules) "s")).
    { apply in_counts. inversion HD as [d i w r0 T|d i x w r0 T|d i j r0 ts (r1 & H1 & V1 & _) (K1 & K2 & K3) HA]; subst; try congruence.
      exists r1. split; [exact H1|]. rewrite <- V1. split; congruence. }
    destruct (parse_complete scan_mean delta_mean gamma_mean re_match rules (length history) (normalize text) Hp Hplain Hre n ch roots c t Hb He Hc Hct Hargs HD) as (t' & Ht & Hs).
    exists t'. split; [now apply (proj2 (in_sort_trees _ _))|exact Hs].
  Qed.

  (** ** C63 *)

  (** Building the chart ends, for every grammar: in a chart, or with Python's
      complaint that a dict changed while it is iterated. *)
  Theorem C63_the_chart_is_finite :
    forall (ix : gindex S) text, re_ok re_match -> patterns_ok re_match (fun r => exists c n, In r (find_rules ix c n)) ->
    exists N o, (forall n, N <= n -> build_chart scan_mean gamma_mean re_match n ix text = o) /\
      ((exists ch, o = Ok ch) \/ o = Exn RuntimeErr).
  Proof.
    intros ix text Hre Ht. set (N := Datatypes.S (length (possible scan_mean gamma_mean ix text))).
    exists N, (build_chart scan_mean gamma_mean re_match N ix text).
    destruct (build_chart_outcome scan_mean gamma_mean re_match ix text Hre Ht N) as [(ch & E & _)|E]; [unfold N; lia| |]; split.
    - intros n Hn. apply build_chart_mono; [congruence|exact Hn].
    - left. eauto.
    - intros n Hn. apply build_chart_mono; [congruence|exact Hn].
    - right. exact E.
  Qed.
  (** Without empty rules and words it ends in a chart. *)
  Theorem C63_no_error_without_empty_rules :
    forall (ix : gindex S) text, re_ok re_match -> patterns_ok re_match (fun r => exists c n, In r (find_rules ix c n)) ->
      (forall c n r, In r (find_rules ix c n) -> solid r) ->
    exists N ch, forall n, N <= n -> build_chart scan_mean gamma_mean re_match n ix text = Ok ch.
  Proof.
    intros ix text Hre Ht Hs. set (N := Datatypes.S (length (possible scan_mean gamma_mean ix text))).
    destruct (build_chart_returns scan_mean gamma_mean re_match ix text Hre Ht Hs N) as (ch & E & _); [unfold N; lia|].
    exists N, ch. intros n Hn. rewrite <- E. apply build_chart_mono; [congruence|exact Hn].
  Qed.

  (** ** C64 *)

  (** [acyclic_units rules rank]: a rule with one consequent, a relation, lowers
      the rank. *)
  Theorem C64_parsing_ends_without_unit_cycles :
    forall rules rank history text,
      Forall proper_rule rules -> re_ok re_match -> patterns_ok re_match (in_grammar rules) ->
      (forall r, in_grammar rules r -> solid r /\ k_type (g_ante r) = PRelation) ->
      acyclic_units rules rank ->
      exists N, forall n, N <= n -> exists r,
        fst (parse n text (after_parses history (grammar_rules rules))) = Ok r.
  Proof.
    intros rules rank history text Hp Hre Ht Hplain Hrank.
    destruct (parse_returns scan_mean delta_mean gamma_mean re_match rules (length history) (normalize text) Hp Hplain Hre Ht rank Hrank) as (N & HN).
    exists N. intros n Hn. destruct (HN n Hn) as (ch & roots & Hb & He). rewrite after_parses_index.
    unfold parser_process, earley_parse. cbn [after] in Hb. rewrite Hb. cbn [obind]. rewrite He. cbn [obind fst]. eauto.
  Qed.

  (** ** C65 *)
  Theorem C65_earlier_parses_do_not_matter :
    forall history n text (ix : gindex S),
      fst (parse n text (after_parses history ix)) = fst (parse n text ix).
  Proof.
    intros history n text ix. rewrite after_parses_index. unfold parser_process. rewrite earley_parse_after.
    destruct (earley_parse _ _ _ _ _ _ ix) as [[]]; reflexivity.
  Qed.

  (** ** C66 *)

  (** [furthest ch m] (EarleyProofs7.v): no completed constituent of the chart
      ends after [m], and one ends there or [m] is 0. *)
  Theorem C66_errors_classify_the_failure :
    forall n text (ix : gindex S) r,
      fst (parse n text ix) = Ok r ->
      (pr_products r <> [] -> pr_error r = "" /\ pr_args r = []) /\
      (pr_products r = [] ->
       exists ch m, build_chart scan_mean gamma_mean re_match n (add_delta_rules delta_mean ix) (normalize text) = Ok ch /\
         furthest ch m /\
         (m < String.length (normalize text) ->
            pr_error r = "unknown_word" /\ pr_args r = [append (take 9 (drop m (normalize text))) " ..."]) /\
         (String.length (normalize text) <= m -> normalize text = "" -> pr_error r = "no_sentence" /\ pr_args r = []) /\
         (String.length (normalize text) <= m -> normalize text <> "" -> pr_error r = "not_understood" /\ pr_args r = [])).
  Proof.
    intros n text ix r. unfold parser_process, earley_parse.
    destruct (build_chart _ _ _ _ _ _) as [ch| |] eqn:Eb; cbn [obind fst]; try discriminate.
    destruct (extract_tree_roots _ _ _) as [roots| |] eqn:Er; cbn [obind fst]; try discriminate.
    intros [= <-]. cbn [pr_products pr_error pr_args]. destruct roots as [|t roots].
    - split; [|].
      + intros H. exfalso. apply H. destruct (negb _); [reflexivity|]. destruct (Nat.eqb _ _); reflexivity.
      + intros _. assert (Htext : ch_text ch = normalize text) by (apply (build_origin _ _ _ _ _ _ _ Eb)).
        exists ch, (last_understood ch). split; [reflexivity|]. split; [apply last_understood_furthest|].
        unfold find_unknown_word. rewrite Htext. split; [|split].
        * intros Hlt. apply Nat.ltb_lt in Hlt. rewrite Hlt.
          assert (E : String.eqb (append (take 9 (drop (last_understood ch) (normalize text))) " ...") "" = false).
          { apply String.eqb_neq. intros E. apply (f_equal String.length) in E. rewrite append_length in E. simpl in E. lia. }
          rewrite E. simpl. auto.
        * intros Hge E0. destruct (Nat.ltb_spec (last_understood ch) (String.length (normalize text))) as [Hlt|_]; [lia|]. simpl. rewrite E0. simpl. auto.
        * intros Hge E0. destruct (Nat.ltb_spec (last_understood ch) (String.length (normalize text))) as [Hlt|_]; [lia|]. simpl.
          destruct (Nat.eqb_spec (String.length (normalize text)) 0) as [E|_]; [|auto]. exfalso. apply E0. destruct (normalize text); [reflexivity|discriminate].
    - split; [intros _; auto|]. intros H. exfalso. pose proof (sort_trees_perm (t :: roots)) as HP. cbn [pr_products] in H. rewrite H in HP. apply Permutation_nil in HP. discriminate.
  Qed.

  (** ** C67 *)
  Definition better (a b : tree) : Prop :=
    (total_boost a > total_boost b)%Z \/
    (total_boost a = total_boost b /\
     (regexp_nodes a < regexp_nodes b \/ (regexp_nodes a = regexp_nodes b /\ height a >= height b))).
  Theorem C67_trees_are_ordered :
    forall (l : list tree), Permutation (sort_trees l) l /\ StronglySorted better (sort_trees l).
  Proof.
    intros l. split; [apply sort_trees_perm|].
    assert (H0 : StronglySorted (fun _ _ : tree => True) l).
    { induction l; constructor; auto. apply Forall_forall. auto. }
    apply (stable_sort_sorted (get_depth 0)) in H0. apply (stable_sort_sorted count_tokens) in H0.
    apply (stable_sort_sorted (fun t => (- get_boost t)%Z)) in H0. fold (sort_trees l) in H0. revert H0. generalize (sort_trees l). intros m H0.
    induction H0 as [|x m HS IH HF]; constructor; [exact IH|]. eapply Forall_impl; [|exact HF].
    intros y. unfold by_key, better. rewrite !get_boost_total, !count_tokens_nodes, !get_depth_height. lia.
  Qed.
  (** trees with the same boost, number of regexps and height keep their order *)
  Theorem C67_ties_keep_their_order :
    forall (l : list tree) b c h,
      filter (fun t => Z.eqb (total_boost t) b && Nat.eqb (regexp_nodes t) c && Nat.eqb (height t) h) (sort_trees l) =
      filter (fun t => Z.eqb (total_boost t) b && Nat.eqb (regexp_nodes t) c && Nat.eqb (height t) h) l.
  Proof.
    intros l b c h. unfold sort_trees.
    assert (H : forall x y : tree, Z.eqb (total_boost x) b && Nat.eqb (regexp_nodes x) c && Nat.eqb (height x) h = true ->
      Z.eqb (total_boost y) b && Nat.eqb (regexp_nodes y) c && Nat.eqb (height y) h = true ->
      total_boost x = total_boost y /\ regexp_nodes x = regexp_nodes y /\ height x = height y).
    { intros x y Hx Hy. apply andb_true_iff in Hx as [Hx X3]. apply andb_true_iff in Hx as [X1 X2].
      apply andb_true_iff in Hy as [Hy Y3]. apply andb_true_iff in Hy as [Y1 Y2].
      apply Z.eqb_eq in X1, Y1. apply Nat.eqb_eq in X2, X3, Y2, Y3. repeat split; congruence. }
    rewrite !stable_sort_filter; [reflexivity| | |]; intros x y Hx Hy; destruct (H x y Hx Hy) as (A & B & C);
      rewrite ?get_boost_total, ?count_tokens_nodes, ?get_depth_height; lia.
  Qed.
  (** the products of a parse are in this order *)
  Theorem C67_products_are_ordered :
    forall n text (ix : gindex S) r, fst (parse n text ix) = Ok r -> StronglySorted better (pr_products r).
  Proof.
    intros n text ix r. unfold parser_process. destruct (earley_parse _ _ _ _ _ _ _) as [[x| |] ix']; try discriminate.
    intros [= <-]. apply C67_trees_are_ordered.
  Qed.

  (** ** C68 *)

  (** [read_word text i w]: does the word constant [w] match at position [i]? *)
  Theorem C68_lower_case_words_match_any_case :
    forall text i w, lower w = w ->
      (read_word text i w = true <-> exists v, stands_at text i v /\ lower v = lower w).
  Proof.
    intros text i w Hw. unfold read_word. rewrite String.eqb_eq, take_lower. split.
    - intros E. exists (take (String.length w) (drop i text)). split; [|congruence].
      unfold stands_at. f_equal. rewrite <- lower_length, E. reflexivity.
    - intros (v & Hv & E). rewrite Hw in E. assert (El : String.length v = String.length w) by (rewrite <- E; symmetry; apply lower_length).
      unfold stands_at in Hv. rewrite <- El, Hv. exact E.
  Qed.
  Theorem C68_upper_case_words_never_match :
    forall text i w, lower w <> w -> read_word text i w = false.
  Proof.
    intros text i w Hw. unfold read_word. apply String.eqb_neq. rewrite take_lower. intros E. apply Hw. rewrite <- E. apply lower_idem.
  Qed.
  (** So no rule with such a word is in any tree. *)
  Theorem C68_no_tree_with_a_capital :
    forall rules history n text res t r c,
      Forall proper_rule rules -> (forall r, In r rules -> k_type (g_ante r) = PRelation) ->
      fst (parse n text (after_parses history (grammar_rules rules))) = Ok res ->
      In t (pr_products res) -> In r (nodes t) ->
      k_type (g_ante r) = PRelation -> In c (g_cons r) -> k_type c = PWord ->
      lower (k_pred c) = k_pred c.
  Proof.
    intros rules history n text res t r c Hp Hrel H Ht Hin HT Hc Hw. rewrite after_parses_index in H.
    destruct (parse_ok _ _ _ _ _ H) as (ch & roots & Hb & He & Hr). rewrite Hr in Ht. apply (proj1 (in_sort_trees _ _)) in Ht.
    destruct (parse_sound scan_mean delta_mean gamma_mean re_match _ _ _ _ _ _ Hp Hb He t Ht) as (m & _ & HD).
    set (ok := fun c => k_type c = PWord -> lower (k_pred c) = k_pred c).
    assert (HX : (forall d i j t, derivation rules (normalize text) d i j t ->
               ok d /\ forall rl, In rl (nodes t) -> k_type (g_ante rl) = PRelation -> forall e, In e (g_cons rl) -> ok e) /\
            (forall cs i j ts, derives_all scan_mean re_match (in_grammar rules) (normalize text) cs i j ts ->
               (forall e, In e cs -> ok e) /\
               forall rl, In rl (flat_map nodes ts) -> k_type (g_ante rl) = PRelation -> forall e, In e (g_cons rl) -> ok e)).
    { apply derives_both.
      - intros d i w rl T _ Hl ((_ & _ & K) & _). split.
        + intros _. rewrite <- Hl. apply lower_idem.
        + intros rl' [<-|[]] HR. congruence.
      - intros d i x w rl T _ _ _ ((_ & _ & K) & _). split; [intros HW; congruence|]. intros rl' [<-|[]] HR. congruence.
      - intros d i j rl ts (r0 & Hr0 & V0 & _) (_ & _ & Kr) _ [IH1 IH2].
        split; [intros HW; rewrite <- Kr, V0, (Hrel _ Hr0) in HW; discriminate|].
        intros rl' [<-|Hin'] HR; [exact IH1|apply IH2; assumption].
      - intros i. split; [intros e []|intros rl []].
      - intros d cs i j k0 t0 ts _ [IH1 IH2] _ [IH3 IH4]. split.
        + intros e [<-|He']; [exact IH1|exact (IH3 e He')].
        + intros rl Hin'. simpl in Hin'. apply in_app_or in Hin' as [Hin'|Hin']; [exact (IH2 rl Hin')|exact (IH4 rl Hin')]. }
    apply (proj2 (proj1 HX _ _ _ _ HD) r Hin HT c Hc Hw).
  Qed.

  (** ** C69 *)

  (** [node_at t 0 u i]: [u] is a subtree of [t] that starts at position [i] of
      the spelled text. *)
  Theorem C69_regexp_leaves_are_prefixes :
    forall rules history n text r t u i cat form rule,
      Forall proper_rule rules -> re_ok re_match ->
      (forall r, In r rules -> k_type (g_ante r) = PRelation) ->
      fst (parse n text (after_parses history (grammar_rules rules))) = Ok r ->
      In t (pr_products r) -> node_at t 0 u i -> u = Node cat [] form rule -> k_type (g_ante rule) = PRegExp ->
      form <> "" /\
      exists rest, re_match cat (drop i (normalize text)) = Ok (Some (append form rest)).
  Proof.
    intros rules history n text r t u i cat form rule Hp Hre Hrel H Ht Hnode -> HT. rewrite after_parses_index in H.
    destruct (parse_ok _ _ _ _ _ H) as (ch & roots & Hb & He & Hr). rewrite Hr in Ht. apply (proj1 (in_sort_trees _ _)) in Ht.
    destruct (parse_sound scan_mean delta_mean gamma_mean re_match _ _ _ _ _ _ Hp Hb He t Ht) as (m & _ & HD).
    destruct (node_derives scan_mean re_match (in_grammar rules) (normalize text) Hre _ _ _ _ Hnode _ _ HD) as (c & q & HL); [lia|].
    inversion HL as [d i' w rl T _ _ ((_ & _ & K) & _)|d i' x w rl T Hm (rest & Em) Hne _|d i' j rl ts Gr _ _]; subst.
    - congruence.
    - split; [exact Hne|]. exists rest. exact Hm.
    - destruct Gr as (r0 & Hr0 & V0 & _). rewrite V0, (Hrel _ Hr0) in HT. discriminate.
  Qed.

  (** ** C70 *)

  (** [in_tree r t]: [r] is the rule of a node of [t]; [written_alike]: the
      same antecedent, consequents and variables. *)
  Theorem C70_the_first_of_identical_rules_is_used :
    forall rules history n text res t r,
      Forall proper_rule rules ->
      fst (parse n text (after_parses history (grammar_rules rules))) = Ok res ->
      In t (pr_products res) -> in_tree r t -> k_type (g_ante r) = PRelation ->
      exists before r0 after, rules = before ++ r0 :: after /\ rule_variant r0 r /\
        forall r1, In r1 before -> ~ written_alike r1 r0.
  Proof.
    intros rules history n text res t r Hp H Ht Hr HT. rewrite after_parses_index in H.
    destruct (parse_ok _ _ _ _ _ H) as (ch & roots & Hb & He & E). rewrite E in Ht. apply (proj1 (in_sort_trees _ _)) in Ht.
    eapply parse_first; eassumption.
  Qed.
End Parsing.
Print Assumptions C61_trees_are_derivations.
Print Assumptions C62_every_derivation_is_found.
Print Assumptions C63_the_chart_is_finite.
Print Assumptions C63_no_error_without_empty_rules.
Print Assumptions C64_parsing_ends_without_unit_cycles.
Print Assumptions C65_earlier_parses_do_not_matter.
Print Assumptions C66_errors_classify_the_failure.
Print Assumptions C67_trees_are_ordered.
Print Assumptions C67_ties_keep_their_order.
Print Assumptions C67_products_are_ordered.
Print Assumptions C68_lower_case_words_match_any_case.
Print Assumptions C68_upper_case_words_never_match.
Print Assumptions C68_no_tree_with_a_capital.
Print Assumptions C69_regexp_leaves_are_prefixes.
Print Assumptions C70_the_first_of_identical_rules_is_used.

(** ** C71, C72 *)

(** [rule_variant] (ParserSpec.v) says which parts may be left out. *)
Theorem C71_variants :
  forall S (r : grule S),
    (forall r', In r' (create_rule_variants r) <-> rule_variant r r') /\
    exists more, create_rule_variants r = r :: more.
Proof. intros S r. apply variants_spec. Qed.
Print Assumptions C71_variants.

Theorem C72_the_index_finds_the_added_rules :
  forall S (rules : list (grule S)) category arity r,
    In r (find_rules (grammar_rules rules) category arity) <->
    exists r0, In r0 rules /\ k_pred (g_ante r0) = category /\ length (k_args (g_ante r0)) = arity /\ rule_variant r0 r.
Proof.
  intros S rules c n r. rewrite in_find_rules. split.
  - intros ((r0 & H0 & Hv) & Hc & Hn). exists r0. pose proof Hv as (E & _). rewrite <- E. auto.
  - intros (r0 & H0 & Hc & Hn & Hv). pose proof Hv as (E & _). rewrite E. split; [exists r0; auto|auto].
Qed.
Print Assumptions C72_the_index_finds_the_added_rules.

(** in the order in which they were added *)
Theorem C72_in_order_of_addition :
  forall S (rules : list (grule S)) (r : grule S) category arity,
    find_rules (grammar_rules (rules ++ [r])) category arity =
    find_rules (grammar_rules rules) category arity ++
    (if String.eqb (k_pred (g_ante r)) category && Nat.eqb (length (k_args (g_ante r))) arity then create_rule_variants r else []).
Proof.
  intros S rules r c n. rewrite !find_rules_spec, filter_app, flat_map_app. f_equal. cbn [filter]. unfold has_key.
  destruct (String.eqb (k_pred (g_ante r)) c && Nat.eqb (length (k_args (g_ante r))) n); cbn [flat_map]; now rewrite ?app_nil_r.
Qed.
Print Assumptions C72_in_order_of_addition.
