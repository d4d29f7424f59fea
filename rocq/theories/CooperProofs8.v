(** * Cooper: what is executed for each question and each lesson *)

From Coq Require Import ZArith String Ascii List Bool Arith Lia.
From Verif Require Import Py ReprProofs Effects Grammar Earley Composer Atoms InferenceModule QuestionSystem PropSystem EarleyProofs6 FragmentModel RegexProofs2 SirSpec SirProofs CooperModel Optimizer QuestionProofs2
  PropParser Solver Memory Generator TalkModel Pipeline SirModel CooperModel WordReading WordReading2 WordReading3 WordReading4 CooperProofs CooperProofs3 CooperProofs4 CooperProofs5 CooperProofs6 CooperSpec2 CooperProofs7.
Import ListNotations.
Local Open Scope nat_scope.
Local Open Scope string_scope.
Local Open Scope list_scope.

Lemma every_list p s : every_char p s = forallb p (list_ascii_of_string s).
Proof. induction s as [|c s IH]; [reflexivity|]. cbn. now rewrite IH. Qed.
Lemma name_fits quotes u : incl quotes grammar_words -> name_word u -> fits quotes Name u.
Proof. intros Hi (H1 & H2 & H3 & H4). cbn. rewrite every_list, H3. repeat split; auto. Qed.
Lemma names_fit quotes words name : incl quotes grammar_words -> name_words words name -> Forall2 (fits quotes) (repeat Name (length words)) words.
Proof. intros Hi [u Hu|u v Hu Hv]; cbn [length repeat]; repeat apply Forall2_cons; try apply Forall2_nil; now apply name_fits. Qed.
Lemma lits_fit quotes us others : map lower us = others -> Forall2 (fits quotes) (map Lit others) us.
Proof. intros <-. induction us; cbn; constructor; auto. reflexivity. Qed.
Lemma names_named words name : name_words words name -> named words name.
Proof.
  intros [u (Hu & _)|u v (Hu & _) (Hv & _)]; destruct u as [|a u]; try congruence; [constructor|]. destruct v as [|b v]; [congruence|]. constructor.
Qed.
Lemma names_lower words name : name_words words name -> lower name = name.
Proof.
  intros [u (_ & _ & Hu & _)|u v (_ & _ & Hu & _) (_ & _ & Hv & _)]; [exact Hu|].
  assert (L : forall a b, lower (append a b) = append (lower a) (lower b)) by (induction a as [|c a IH]; intros b; [reflexivity|]; cbn; now rewrite IH).
  rewrite !L, Hu, Hv. reflexivity.
Qed.

Notation past1 history := (after_parses scanned delta_meaning gamma_meaning py_match history (grammar_rules grammar1)).
Notation past2 history := (after_parses scanned delta_meaning gamma_meaning py_match history (grammar_rules grammar2)).

Lemma read2 text words name others s : name_words words name -> in_words words others (normalize text) -> others <> [] -> forallb kind_ok (map Lit others) = true ->
  best2 (repeat Name (length words) ++ map Lit others) s = true ->
  exists us N, map lower us = others /\ forall fuel, N <= fuel -> forall history, exists res t ts,
    parse_with py_match fuel text (past2 history) = (Ok res, past2 (history ++ [(fuel, text)])) /\ Earley.pr_products res = t :: ts /\
    forall opt n, process opt t n = process opt (build rules2 top2 (shape_map (word_at (words ++ us)) (SNode 0 [s]))) n.
Proof.
  intros Hn (us & Hl & Ht) Ho Hk Hb. exists us.
  destruct (first_reading grammar2 cooper_rank words2 top2 start2 12 text (words ++ us) (repeat Name (length words) ++ map Lit others) 0 [s]) as (N & HN).
  - exact Ht.
  - destruct us; [now subst|]. destruct words; discriminate.
  - rewrite forallb_app, Hk, andb_true_r. clear. induction (length words); [reflexivity|exact IHn].
  - rewrite table2_eq. apply Forall2_app; [apply (names_fit _ _ name quotes2 Hn)|now apply lits_fit].
  - rewrite table2_eq. exact Hb.
  - exists N. split; [exact Hl|]. rewrite rules2_eq in HN. exact HN.
Qed.
Lemma read1 text words others k ss : (words = [] \/ exists name, name_words words name) -> in_words words others (normalize text) -> others <> [] -> forallb kind_ok (map Lit others) = true ->
  best1 (repeat Name (length words) ++ map Lit others) (SNode k ss) = true ->
  exists us N, map lower us = others /\ forall fuel, N <= fuel -> forall history, exists res t ts,
    parse_with py_match fuel text (past1 history) = (Ok res, past1 (history ++ [(fuel, text)])) /\ Earley.pr_products res = t :: ts /\
    forall opt n, process opt t n = process opt (build rules1 top1 (shape_map (word_at (words ++ us)) (SNode k ss))) n.
Proof.
  intros Hn (us & Hl & Ht) Ho Hk Hb. exists us.
  destruct (first_reading grammar1 cooper_rank words1 top1 start1 12 text (words ++ us) (repeat Name (length words) ++ map Lit others) k ss) as (N & HN).
  - exact Ht.
  - destruct us; [now subst|]. destruct words; discriminate.
  - rewrite forallb_app, Hk, andb_true_r. clear. induction (length words); [reflexivity|exact IHn].
  - rewrite table1_eq. apply Forall2_app; [|now apply lits_fit]. destruct Hn as [->|(name & Hn)]; [constructor|apply (names_fit _ _ name quotes1 Hn)].
  - rewrite table1_eq. exact Hb.
  - exists N. split; [exact Hl|]. rewrite rules1_eq in HN. exact HN.
Qed.

Lemma named2_words words name us : name_words words name -> shape_map (word_at (words ++ us)) (named2 (length words)) = name2 words.
Proof. intros [u Hu|u v Hu Hv]; reflexivity. Qed.
Lemma named1_words words name us : name_words words name -> shape_map (word_at (words ++ us)) (named1 (length words)) = name1 words.
Proof. intros [u Hu|u v Hu Hv]; reflexivity. Qed.
Lemma words_one_two words name : name_words words name -> In (length words) [1; 2].
Proof. intros [|]; cbn; auto. Qed.
Lemma kinds1 w q : In (w, q) lesson_nouns -> kind_ok (Lit w) = true.
Proof. intros H. cbn in H. repeat (destruct H as [H|H]; [injection H as <- <-; reflexivity|]). destruct H. Qed.
Lemma kinds2 w q : In (w, q) question_nouns -> kind_ok (Lit w) = true.
Proof. intros H. cbn in H. repeat (destruct H as [H|H]; [injection H as <- <-; reflexivity|]). destruct H. Qed.
Lemma kinds_art d : In d articles -> kind_ok (Lit d) = true.
Proof. intros [<-|[<-|[]]]; reflexivity. Qed.

(** variables with different numbers differ *)
Lemma var_inj a b : var a = var b -> a = b.
Proof. unfold var. intros [= H]. apply repr_Z_inj in H. lia. Qed.
Lemma vars_differ k l : NoDup l -> NoDup (map (fun i => var (i + k)) l).
Proof.
  induction 1 as [|x l Hx _ IH]; cbn; constructor; auto. rewrite in_map_iff. intros (y & E & Hy). apply var_inj in E. apply Hx. replace x with y by lia. exact Hy.
Qed.
Lemma five k : NoDup [var (S k); var (S (S k)); var (S (S (S k))); var (S (S (S (S k)))); var (S (S (S (S (S k)))))].
Proof. apply (vars_differ k [1; 2; 3; 4; 5]). repeat constructor; cbn; lia. Qed.

(** ** questions *)
Definition meant (o : option (list value -> list string -> outcome (list (string * value)))) (t : ctree) (number number' : nat) (atoms : list value) : Prop :=
  exists its root, process o t number = (Ok (mkProduct its [] (VList []) root), number') /\ last_iteration its = VList atoms.
Lemma question_read text words name w q v others : name_words words name -> In (w, q) question_nouns -> question_words w v others -> in_words words others (normalize text) ->
  exists N, forall fuel, N <= fuel -> forall history, exists res t ts,
    parse_with py_match fuel text (past2 history) = (Ok res, past2 (history ++ [(fuel, text)])) /\ Earley.pr_products res = t :: ts /\
    forall k, exists number atoms, k <= number /\ meant (Some (optimize plain_sizes)) t k number atoms /\
      asks name q (var (S (S k))) (var (S (S (S (S k))))) (var (S (S (S k)))) (var (S k)) (var (S (S (S (S (S k)))))) v atoms.
Proof.
  intros Hn Hw Hq Hin. destruct (nouns2_all _ _ Hw) as (j & Hj). pose proof (nouns2_rules _ _ _ Hj) as Rj. destruct (nouns2_quality _ _ Hw) as (Hql & b & w' & ->).
  pose proof (kinds2 _ _ Hw) as Kw. pose proof (each_in _ _ _ questions_best (words_one_two _ _ Hn)) as B. cbv beta in B. pose proof (each_in _ _ _ B Hj) as B2. cbv beta iota zeta in B2.
  apply andb_true_iff in B2 as (B2 & B4). apply andb_true_iff in B2 as (B1 & B3).
  assert (Go : forall s (Hk : forallb kind_ok (map Lit others) = true) (Hb : best2 (repeat Name (length words) ++ map Lit others) s = true),
    (forall us, map lower us = others -> forall k, exists number atoms, k <= number /\ meant (Some (optimize plain_sizes)) (build rules2 top2 (shape_map (word_at (words ++ us)) (SNode 0 [s]))) k number atoms /\
      asks name q (var (S (S k))) (var (S (S (S (S k))))) (var (S (S (S k)))) (var (S k)) (var (S (S (S (S (S k)))))) v atoms) ->
    exists N, forall fuel, N <= fuel -> forall history, exists res t ts,
    parse_with py_match fuel text (past2 history) = (Ok res, past2 (history ++ [(fuel, text)])) /\ Earley.pr_products res = t :: ts /\
    forall k, exists number atoms, k <= number /\ meant (Some (optimize plain_sizes)) t k number atoms /\
      asks name q (var (S (S k))) (var (S (S (S (S k))))) (var (S (S (S k)))) (var (S k)) (var (S (S (S (S (S k)))))) v atoms).
  { intros s Hk Hb Hm. assert (Ho : others <> []) by (destruct Hq; discriminate). destruct (read2 text words name others s Hn Hin Ho Hk Hb) as (us & N & Hl & HN). exists N. intros fuel Hf history.
    destruct (HN fuel Hf history) as (res & t & ts & E1 & E2 & E3). exists res, t, ts. split; [exact E1|]. split; [exact E2|]. intros k. destruct (Hm us Hl k) as (number & atoms & Hle & (its & root & Ep & El) & Ha).
    exists number, atoms. split; [exact Hle|]. split; [|exact Ha]. exists its, root. split; [rewrite E3; exact Ep|exact El]. }
  pose proof (names_named _ _ Hn) as Hnm.
  destruct Hq as [d Hd| |d Hd|].
  - destruct (arts2_all _ Hd) as (jd & Hjd). pose proof (arts2_rules _ _ Hjd) as Rd. pose proof (kinds_art _ Hd) as Kd. destruct (arts_letters _ Hd) as (d1 & d' & ->). pose proof (each_in _ _ _ B1 Hjd) as B5. cbv beta iota zeta in B5.
    apply andb_true_iff in B5 as (B5 & _). apply (Go _ ltac:(cbn [map forallb]; rewrite Kd, Kw; reflexivity) B5). intros us _ k.
    cbn [shape_map map is_2 art_ noun2]. rewrite (named2_words _ _ us Hn).
    destruct (optimized_is_a name q _ _ _ _ _ (five k) Hql) as (its & Eo & El).
    eexists _, _. split; [|split; [exists its; eexists; split; [exact (process_optimized _ _ _ _ _ _ its (composed_is_a words name jd d1 d' j b w' q k Hnm Rd Rj) eq_refl Eo)|exact El]|constructor]]. lia.
  - apply (Go _ ltac:(cbn [map forallb]; rewrite Kw; reflexivity) B3). intros us _ k.
    cbn [shape_map map is_2 art_ noun2]. rewrite (named2_words _ _ us Hn).
    destruct (optimized_is name q _ _ _ _ _ (five k) Hql) as (its & Eo & El).
    eexists _, _. split; [|split; [exists its; eexists; split; [exact (process_optimized _ _ _ _ _ _ its (composed_is words name j b w' q k Hnm Rj) eq_refl Eo)|exact El]|constructor]]. lia.
  - destruct (arts2_all _ Hd) as (jd & Hjd). pose proof (arts2_rules _ _ Hjd) as Rd. pose proof (kinds_art _ Hd) as Kd. destruct (arts_letters _ Hd) as (d1 & d' & ->). pose proof (each_in _ _ _ B1 Hjd) as B5. cbv beta iota zeta in B5.
    apply andb_true_iff in B5 as (_ & B5). apply (Go _ ltac:(cbn [map forallb]; rewrite Kd, Kw; reflexivity) B5). intros us _ k.
    cbn [shape_map map is_2 art_ noun2]. rewrite (named2_words _ _ us Hn).
    destruct (optimized_is_not_a name q _ _ _ _ _ (five k) Hql) as (its & Eo & El).
    eexists _, _. split; [|split; [exists its; eexists; split; [exact (process_optimized _ _ _ _ _ _ its (composed_is_not_a words name jd d1 d' j b w' q k Hnm Rd Rj) eq_refl Eo)|exact El]|constructor]]. lia.
  - apply (Go _ ltac:(cbn [map forallb]; rewrite Kw; reflexivity) B4). intros us _ k.
    cbn [shape_map map is_2 art_ noun2]. rewrite (named2_words _ _ us Hn).
    destruct (optimized_is_not name q _ _ _ _ _ (five k) Hql) as (its & Eo & El).
    eexists _, _. split; [|split; [exists its; eexists; split; [exact (process_optimized _ _ _ _ _ _ its (composed_is_not words name j b w' q k Hnm Rj) eq_refl Eo)|exact El]|constructor]]. lia.
Qed.

(** ** lessons *)
Definition lesson_atoms (l : lesson) (k : nat) : list value :=
  match l with
  | Tell name q => tells name q (var (S k)) (var (S (S k)))
  | Learn A B v => learns A B v (var (S k)) (var (S (S k))) (var (S (S (S k))))
  end.
Definition lesson_variables (l : lesson) : nat := match l with Tell _ _ => 2 | Learn _ _ _ => 3 end.

Lemma lesson_read text l words others : lesson_words l words others -> in_words words others (normalize text) ->
  exists N, forall fuel, N <= fuel -> forall history, exists res t ts,
    parse_with py_match fuel text (past1 history) = (Ok res, past1 (history ++ [(fuel, text)])) /\ Earley.pr_products res = t :: ts /\
    forall k, meant (Some (optimize plain_sizes)) t k (lesson_variables l + k) (lesson_atoms l k).
Proof.
  intros Hl Hin.
  assert (Go : forall i ss (Hw : words = [] \/ exists name, name_words words name) (Hk : forallb kind_ok (map Lit others) = true) (Hb : best1 (repeat Name (length words) ++ map Lit others) (SNode i ss) = true),
    (forall us, map lower us = others -> forall k, meant (Some (optimize plain_sizes)) (build rules1 top1 (shape_map (word_at (words ++ us)) (SNode i ss))) k (lesson_variables l + k) (lesson_atoms l k)) ->
    exists N, forall fuel, N <= fuel -> forall history, exists res t ts,
    parse_with py_match fuel text (past1 history) = (Ok res, past1 (history ++ [(fuel, text)])) /\ Earley.pr_products res = t :: ts /\
    forall k, meant (Some (optimize plain_sizes)) t k (lesson_variables l + k) (lesson_atoms l k)).
  { intros i ss Hw Hk Hb Hm. assert (Ho : others <> []) by (destruct Hl; discriminate). destruct (read1 text words others i ss Hw Hin Ho Hk Hb) as (us & N & Hlow & HN). exists N. intros fuel Hf history.
    destruct (HN fuel Hf history) as (res & t & ts & E1 & E2 & E3). exists res, t, ts. split; [exact E1|]. split; [exact E2|]. intros k. destruct (Hm us Hlow k) as (its & root & Ep & El).
    exists its, root. split; [rewrite E3; exact Ep|exact El]. }
  assert (Three : forall k, NoDup [var (S k); var (S (S k)); var (S (S (S k)))]) by (intros k; apply (vars_differ k [1; 2; 3]); repeat constructor; cbn; lia).
  destruct Hl as [names name d w q Hn Hd Hw|d w1 A w2 B Hd H1 H2|w1 A w2 B H1 H2|d d2 w1 A w2 B Hd Hd2 H1 H2].
  - destruct (nouns1_all _ _ Hw) as (i & Hi). pose proof (nouns1_rules _ _ _ Hi) as Ri. destruct (nouns1_quality _ _ Hw) as (Hql & c & v' & ->). pose proof (kinds1 _ _ Hw) as Kw.
    destruct (arts1_all _ Hd) as (jd & Hjd). pose proof (arts1_rules _ _ Hjd) as Rd. pose proof (kinds_art _ Hd) as Kd. destruct (arts_letters _ Hd) as (d1 & d' & ->).
    pose proof (each_in _ _ _ lessons_best (words_one_two _ _ Hn)) as Bst. cbv beta in Bst. apply each_in with (x := (i, (String c v', q))) in Bst; [|exact Hi]. cbv beta iota zeta in Bst.
    apply each_in with (x := (jd, String d1 d')) in Bst; [|exact Hjd]. cbv beta iota zeta in Bst.
    apply (Go _ _ ltac:(eauto) ltac:(cbn [map forallb]; rewrite Kd, Kw; reflexivity) Bst). intros us _ k. cbn [shape_map map is_2 art_ np1]. rewrite (named1_words _ _ us Hn).
    assert (Nd : NoDup [var (3 + k); var (S k); var (S (S k)); var (4 + k); var (5 + k)]) by (apply (vars_differ k [3; 1; 2; 4; 5]); repeat constructor; cbn; lia).
    destruct (optimized_tell name q _ _ _ _ _ Nd Hql) as (its & Eo & El). exists its. eexists. split; [|exact El].
    exact (process_optimized _ _ _ _ _ _ its (composed_tell names name jd d1 d' i c v' q k (names_named _ _ Hn) Rd Ri) eq_refl Eo).
  - destruct (nouns1_all _ _ H1) as (j & Hj). pose proof (nouns1_rules _ _ _ Hj) as Rj. destruct (nouns1_quality _ _ H1) as (Hqa & b & w' & ->). pose proof (kinds1 _ _ H1) as K1.
    destruct (nouns1_all _ _ H2) as (i & Hi). pose proof (nouns1_rules _ _ _ Hi) as Ri. destruct (nouns1_quality _ _ H2) as (Hqb & c & v' & ->). pose proof (kinds1 _ _ H2) as K2.
    destruct (arts1_all _ Hd) as (jd & Hjd). pose proof (arts1_rules _ _ Hjd) as Rd. pose proof (kinds_art _ Hd) as Kd. destruct (arts_letters _ Hd) as (d1 & d' & ->).
    pose proof (each_in _ _ _ rules_best Hj) as Bst. cbv beta iota zeta in Bst. apply each_in with (x := (i, (String c v', B))) in Bst; [|exact Hi]. cbv beta iota zeta in Bst.
    apply andb_true_iff in Bst as (_ & Bst). apply each_in with (x := (jd, String d1 d')) in Bst; [|exact Hjd]. cbv beta iota zeta in Bst. apply andb_true_iff in Bst as (Bst & _).
    apply (Go _ _ ltac:(now left) ltac:(cbn [map forallb]; rewrite K1, Kd, K2; reflexivity) Bst). intros us _ k. cbn [shape_map map is_2 art_ np1 noun1].
    destruct (optimized_learn A B false _ _ _ (Three k) Hqa) as (its & Eo & El). exists its. eexists. split; [|exact El].
    exact (process_optimized _ _ _ _ _ _ its (composed_no jd d1 d' j b w' A i c v' B k Rd Rj Ri) eq_refl Eo).
  - destruct (nouns1_all _ _ H1) as (j & Hj). pose proof (nouns1_rules _ _ _ Hj) as Rj. destruct (nouns1_quality _ _ H1) as (Hqa & b & w' & ->). pose proof (kinds1 _ _ H1) as K1.
    destruct (nouns1_all _ _ H2) as (i & Hi). pose proof (nouns1_rules _ _ _ Hi) as Ri. destruct (nouns1_quality _ _ H2) as (Hqb & c & v' & ->). pose proof (kinds1 _ _ H2) as K2.
    pose proof (each_in _ _ _ rules_best Hj) as Bst. cbv beta iota zeta in Bst. apply each_in with (x := (i, (String c v', B))) in Bst; [|exact Hi]. cbv beta iota zeta in Bst.
    apply andb_true_iff in Bst as (Bst & _).
    apply (Go _ _ ltac:(now left) ltac:(cbn [map forallb]; rewrite K1, K2; reflexivity) Bst). intros us _ k. cbn [shape_map map is_2 art_ np1 noun1].
    destruct (optimized_learn A B true _ _ _ (Three k) Hqa) as (its & Eo & El). exists its. eexists. split; [|exact El].
    exact (process_optimized _ _ _ _ _ _ its (composed_are j b w' A i c v' B k Rj Ri) eq_refl Eo).
  - destruct (nouns1_all _ _ H1) as (j & Hj). pose proof (nouns1_rules _ _ _ Hj) as Rj. destruct (nouns1_quality _ _ H1) as (Hqa & b & w' & ->). pose proof (kinds1 _ _ H1) as K1.
    destruct (nouns1_all _ _ H2) as (i & Hi). pose proof (nouns1_rules _ _ _ Hi) as Ri. destruct (nouns1_quality _ _ H2) as (Hqb & c & v' & ->). pose proof (kinds1 _ _ H2) as K2.
    destruct (arts1_all _ Hd) as (jd & Hjd). pose proof (arts1_rules _ _ Hjd) as Rd. pose proof (kinds_art _ Hd) as Kd. destruct (arts_letters _ Hd) as (d1 & d' & ->).
    destruct (arts1_all _ Hd2) as (je & Hje). pose proof (arts1_rules _ _ Hje) as Re. pose proof (kinds_art _ Hd2) as Ke. destruct (arts_letters _ Hd2) as (e1 & e' & ->).
    pose proof (each_in _ _ _ rules_best Hj) as Bst. cbv beta iota zeta in Bst. apply each_in with (x := (i, (String c v', B))) in Bst; [|exact Hi]. cbv beta iota zeta in Bst.
    apply andb_true_iff in Bst as (_ & Bst). apply each_in with (x := (jd, String d1 d')) in Bst; [|exact Hjd]. cbv beta iota zeta in Bst. apply andb_true_iff in Bst as (_ & Bst).
    apply each_in with (x := (je, String e1 e')) in Bst; [|exact Hje]. cbv beta iota zeta in Bst.
    apply (Go _ _ ltac:(now left) ltac:(cbn [map forallb]; rewrite Ke, K1, Kd, K2; reflexivity) Bst). intros us _ k. cbn [shape_map map is_2 art_ np1 noun1].
    destruct (optimized_learn A B false _ _ _ (Three k) Hqa) as (its & Eo & El). exists its. eexists. split; [|exact El].
    exact (process_optimized _ _ _ _ _ _ its (composed_a_not jd d1 d' je e1 e' j b w' A i c v' B k Rd Re Rj Ri) eq_refl Eo).
Qed.

(** ** an exchange *)
Lemma exchange_run grammar fuel limit text history number number' (w w1 : cooper) res t ts atoms o :
  parse_with py_match fuel text (after_parses scanned delta_meaning gamma_meaning py_match history (grammar_rules grammar)) =
    (Ok res, after_parses scanned delta_meaning gamma_meaning py_match (history ++ [(fuel, text)]) (grammar_rules grammar)) ->
  Earley.pr_products res = t :: ts -> meant (Some (optimize plain_sizes)) t number number' atoms -> 1 <= limit -> run limit atoms w = (o, w1) ->
  exchange fuel limit text (mkWorld (after_parses scanned delta_meaning gamma_meaning py_match history (grammar_rules grammar)) number w) =
    (o, mkWorld (after_parses scanned delta_meaning gamma_meaning py_match (history ++ [(fuel, text)]) (grammar_rules grammar)) number' w1).
Proof.
  intros Epar Eprod (its & root & Ep & El) Hl Hr. unfold exchange.
  rewrite (C98_the_first_tree_is_final cooper py_match fuel (Some (optimize plain_sizes)) (solver_at cooper_mods limit) (store_output cooper_mods limit) FindOne TryFirst TryFirst text
             (mkWorld (after_parses scanned delta_meaning gamma_meaning py_match history (grammar_rules grammar)) number w) _ res t ts ltac:(discriminate) Epar Eprod).
  cbn [sw_number sw_model]. rewrite Ep. cbn [p_inferences p_executable p_iterations foldM ret]. rewrite El.
  destruct limit as [|limit]; [lia|].
  assert (Ee : sv_solve (solver_at cooper_mods (S limit)) (VList []) [] w = (Ok (SList [[]]), w)) by reflexivity.
  rewrite Ee. unfold run, solve in Hr. destruct (sv_solve (solver_at cooper_mods (S limit)) (VList atoms) [] w) as [[s|e|] w2]; cbn [with_world].
  - unfold on_model. cbn [sw_model sw_grammar sw_number]. unfold solve. rewrite Hr. reflexivity.
  - now injection Hr as <- <-.
  - now injection Hr as <- <-.
Qed.
