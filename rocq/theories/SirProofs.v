(** * Reading the sentences of SIR: names, and the trees of a text *)

From Coq Require Import ZArith String Ascii List Bool Arith Lia.
From Verif Require Import Py Effects Grammar Earley ParserSpec GrammarProofs EarleyProofs Composer ComposerProofs ComposerProofs2
  InferenceModule FragmentModel Regex RegexProofs RegexProofs2 RuleParserProofs3 SirModel SirSpec.
Import ListNotations.
Local Open Scope nat_scope.
Local Open Scope string_scope.
Local Open Scope list_scope.

(** ** characters *)

Fixpoint every_char (q : ascii -> bool) (s : string) : bool :=
  match s with "" => true | String c s' => q c && every_char q s' end.
Definition name_char (c : ascii) : bool := word_char c || Ascii.eqb c "-".
(** the text goes on with a character that is not of a name, or ends *)
Definition stops (s : string) : Prop := match s with "" => True | String c _ => name_char c = false end.

Lemma every_app q a b : every_char q (append a b) = every_char q a && every_char q b.
Proof. induction a as [|c a IH]; cbn; auto. now rewrite IH, andb_assoc. Qed.
Lemma every_weaken (p q : ascii -> bool) s : (forall c, p c = true -> q c = true) -> every_char p s = true -> every_char q s = true.
Proof. intros H. induction s as [|c s IH]; cbn; auto. rewrite !andb_true_iff. intuition. Qed.
Lemma all_word_every s : all_word s = every_char word_char s.
Proof. induction s as [|c s IH]; cbn; auto. now rewrite IH. Qed.
Lemma word_is_name s : all_word s = true -> every_char name_char s = true.
Proof. rewrite all_word_every. apply every_weaken. intros c H. unfold name_char. now rewrite H. Qed.

Lemma app_same : forall w w' r r', every_char name_char w = true -> every_char name_char w' = true -> stops r -> stops r' ->
  append w r = append w' r' -> w = w' /\ r = r'.
Proof.
  induction w as [|c w IH]; intros [|d w'] r r' Hw Hw' Sr Sr' E; cbn [append] in E.
  - auto.
  - subst r. cbn in Sr, Hw'. rewrite Sr in Hw'. discriminate.
  - subst r'. cbn in Sr', Hw. rewrite Sr' in Hw. discriminate.
  - injection E as -> E. cbn in Hw, Hw'. apply andb_true_iff in Hw as (_ & Hw). apply andb_true_iff in Hw' as (_ & Hw').
    destruct (IH w' r r' Hw Hw' Sr Sr' E) as (-> & ->). auto.
Qed.

Lemma lower_name_char c : name_char (lower_ascii c) = name_char c.
Proof. destruct c as [[|] [|] [|] [|] [|] [|] [|] [|]]; reflexivity. Qed.
Lemma lower_names s : every_char name_char (lower s) = every_char name_char s.
Proof. induction s as [|c s IH]; cbn [lower every_char]; [reflexivity|]. now rewrite IH, lower_name_char. Qed.
Lemma lower_mark c d : d = " "%char \/ d = "?"%char -> lower_ascii c = d -> c = d.
Proof.
  intros H E. destruct c as [[|] [|] [|] [|] [|] [|] [|] [|]]; vm_compute in E; subst d; destruct H as [H|H]; try discriminate H; reflexivity.
Qed.
Lemma lower_one d w : d = " "%char \/ d = "?"%char -> lower w = String d "" -> w = String d "".
Proof.
  intros H. destruct w as [|c [|c' w]]; cbn; try discriminate. intros [= E]. f_equal. now apply lower_mark.
Qed.
Lemma lower_s w : lower w = "s" -> w = "s" \/ w = "S".
Proof.
  destruct w as [|c [|c' w]]; cbn [lower]; try discriminate. intros [= E].
  destruct c as [[|] [|] [|] [|] [|] [|] [|] [|]]; try (vm_compute in E; discriminate E); vm_compute; auto.
Qed.

Lemma hyphened_names gs : (forall g, In g gs -> g <> "" /\ all_word g = true) -> every_char name_char (hyphened gs) = true.
Proof.
  induction gs as [|g gs IH]; intros H; [reflexivity|]. change (hyphened (g :: gs)) with (String "-" (append g (hyphened gs))).
  cbn [every_char]. rewrite every_app, IH by (intros; apply H; now right). rewrite word_is_name; [reflexivity|]. apply H. now left.
Qed.
Lemma name_chars x : name x -> every_char name_char x = true.
Proof. intros (w & gs & -> & _ & Hw & Hg). now rewrite every_app, word_is_name, hyphened_names. Qed.

(** ** the pattern of names *)

(** the first match *)
Definition matches_first (r : re) (s : string) (n : nat) : Prop := exists l, matches r s = n :: l.
Lemma first_seq a b s n m : matches_first a s n -> matches_first b (drop n s) m -> matches_first (RSeq a b) s (n + m).
Proof. intros (l & E) (l' & E'). rewrite <- (Nat.add_comm m n). unfold matches_first. rewrite matches_seq, E. cbn [flat_map]. rewrite E'. cbn [map app].
  rewrite Nat.add_comm. eexists. reflexivity. Qed.
Lemma first_star_single r p s : single r p -> matches_first (RStar r) s (run p s).
Proof. intros H. unfold matches_first. rewrite (star_single r p s H). destruct (run p s); cbn; eauto. Qed.
Lemma first_star_more a c s n m :
  matches_first a (String c s) (S n) -> matches_first (RStar a) (drop (S n) (String c s)) m -> matches_first (RStar a) (String c s) (S n + m).
Proof.
  intros (l & E) (l' & E'). unfold matches_first. rewrite star_step, E. cbn [flat_map]. rewrite E'. cbn [map app]. eauto.
Qed.
Lemma first_star_end a s : matches a s = [] -> matches_first (RStar a) s 0.
Proof.
  intros E. unfold matches_first. rewrite star_step, E. exists []. reflexivity.
Qed.

Notation word_class := (RClass false [IWord; IDigit]).
Lemma single_word_class : single word_class word_char.
Proof.
  intros s. change (matches word_class s) with (one_char (class_test false [IWord; IDigit]) s). destruct s as [|c s]; [reflexivity|].
  cbn [one_char]. assert (E : class_test false [IWord; IDigit] c = word_char c); [|now rewrite E].
  destruct c as [[|] [|] [|] [|] [|] [|] [|] [|]]; reflexivity.
Qed.
Lemma single_one_word : single (RClass false [IWord]) word_char.
Proof.
  intros s. change (matches (RClass false [IWord]) s) with (one_char (class_test false [IWord]) s). destruct s as [|c s]; [reflexivity|].
  cbn [one_char]. assert (E : class_test false [IWord] c = word_char c); [|now rewrite E].
  destruct c as [[|] [|] [|] [|] [|] [|] [|] [|]]; reflexivity.
Qed.
Notation hyphen := (RClass false [IChar "-"%char]).
Lemma single_hyphen : single hyphen (Ascii.eqb "-").
Proof.
  intros s. change (matches hyphen s) with (one_char (class_test false [IChar "-"%char]) s). destruct s as [|c s]; [reflexivity|].
  cbn [one_char]. assert (E : class_test false [IChar "-"%char] c = Ascii.eqb "-" c); [|now rewrite E].
  destruct c as [[|] [|] [|] [|] [|] [|] [|] [|]]; reflexivity.
Qed.
Notation group := (RSeq hyphen (RSeq word_class (RStar word_class))).
Notation name_re := (RSeq (RClass false [IWord]) (RSeq (RSeq word_class (RStar word_class)) (RStar group))).
Lemma name_compiled : compile name_pattern = Some name_re.
Proof. vm_compute. reflexivity. Qed.

Lemma run_all p w r : every_char p w = true -> (match r with "" => True | String c _ => p c = false end) ->
  run p (append w r) = String.length w.
Proof.
  induction w as [|c w IH]; cbn [append every_char]; intros H Hr.
  - destruct r as [|c r]; [reflexivity|]. cbn. now rewrite Hr.
  - apply andb_true_iff in H as (Hc & H). cbn. rewrite Hc. f_equal. auto.
Qed.
Lemma drop_app w r : drop (String.length w) (append w r) = r.
Proof. induction w as [|c w IH]; cbn; auto. Qed.
Lemma len_app a b : String.length (append a b) = String.length a + String.length b.
Proof. induction a; cbn; auto. Qed.
Lemma app_assoc_s a b c : append (append a b) c = append a (append b c).
Proof. induction a as [|x a IH]; cbn; auto. now rewrite IH. Qed.
Lemma app_nil_s a : append a "" = a.
Proof. induction a as [|x a IH]; cbn; auto. now rewrite IH. Qed.

Definition not_word (r : string) : Prop := match r with "" => True | String c _ => word_char c = false end.
Lemma stops_not_word r : stops r -> not_word r.
Proof. destruct r as [|c r]; cbn; auto. unfold name_char. rewrite orb_false_iff. tauto. Qed.
Lemma hyphened_not_word gs r : stops r -> not_word (append (hyphened gs) r).
Proof. destruct gs as [|g gs]; cbn; [now apply stops_not_word|]. reflexivity. Qed.

Lemma first_word w r : w <> "" -> all_word w = true -> not_word r ->
  matches_first (RSeq word_class (RStar word_class)) (append w r) (String.length w).
Proof.
  intros Hw Ha Hr. destruct w as [|c w]; [congruence|]. cbn in Ha. apply andb_true_iff in Ha as (Hc & Ha). rewrite all_word_every in Ha.
  change (String.length (String c w)) with (1 + String.length w). apply first_seq.
  - exists []. rewrite single_word_class. cbn. now rewrite Hc.
  - cbn [append drop]. rewrite <- (run_all word_char w r) by auto. apply first_star_single, single_word_class.
Qed.
Lemma first_groups gs r : (forall g, In g gs -> g <> "" /\ all_word g = true) -> stops r ->
  matches_first (RStar group) (append (hyphened gs) r) (String.length (hyphened gs)).
Proof.
  intros Hg Hr. induction gs as [|g gs IH].
  - cbn [hyphened append String.length]. apply first_star_end. destruct r as [|c r]; [apply (match_seq_single_nil _ _ _ single_hyphen)|].
    rewrite (match_seq_single _ _ _ _ _ single_hyphen). cbn in Hr. unfold name_char in Hr. apply orb_false_iff in Hr as (_ & Hr).
    rewrite Ascii.eqb_sym, Hr. reflexivity.
  - destruct (Hg g (or_introl eq_refl)) as (Ng & Wg). destruct (IH (fun g' H => Hg g' (or_intror H))) as (l & E).
    change (append (hyphened (g :: gs)) r) with (String "-" (append (append g (hyphened gs)) r)). rewrite app_assoc_s.
    change (String.length (hyphened (g :: gs))) with (S (String.length (append g (hyphened gs)))). rewrite len_app.
    change (S (String.length g + String.length (hyphened gs))) with (S (String.length g) + String.length (hyphened gs)).
    apply first_star_more.
    + destruct (first_word g (append (hyphened gs) r) Ng Wg (hyphened_not_word gs r Hr)) as (l' & E').
      exists (map S l'). rewrite (match_seq_single _ _ _ _ _ single_hyphen). change (Ascii.eqb "-" "-") with true. cbv iota. rewrite E'. reflexivity.
    + change (drop (S (String.length g)) (String "-" (append g (append (hyphened gs) r)))) with
        (drop (String.length g) (append g (append (hyphened gs) r))). rewrite drop_app. exists l. exact E.
Qed.
Lemma first_name x r : name x -> stops r -> matches_first name_re (append x r) (String.length x).
Proof.
  intros (w & gs & -> & Hl & Hw & Hg) Hr. destruct w as [|c w]; [cbn in Hl; lia|]. cbn in Hw. apply andb_true_iff in Hw as (Hc & Hw).
  change (append (String c w) (hyphened gs)) with (String c (append w (hyphened gs))).
  change (String.length (String c (append w (hyphened gs)))) with (1 + String.length (append w (hyphened gs))). apply first_seq.
  - exists []. rewrite single_one_word. cbn. now rewrite Hc.
  - cbn [append drop]. rewrite len_app, app_assoc_s. apply first_seq.
    + apply first_word; auto; [|now apply hyphened_not_word]. intros ->. cbn in Hl. lia.
    + rewrite drop_app. now apply first_groups.
Qed.
Lemma take_app w r : take (String.length w) (append w r) = w.
Proof. induction w as [|c w IH]; cbn; [now destruct r|]. now rewrite IH. Qed.
Lemma name_matched x r : name x -> stops r -> py_match name_pattern (append x r) = Ok (Some x).
Proof.
  intros Hx Hr. unfold py_match. rewrite name_compiled. destruct (first_name x r Hx Hr) as (l & E). unfold re_match. rewrite E. cbn [hd_error option_map].
  now rewrite take_app.
Qed.

(** a match has characters of names only *)
Definition inside (q : ascii -> bool) (r : re) : Prop := forall s n, In n (matches r s) -> every_char q (take n s) = true.
Lemma inside_single q p r : single r p -> (forall c, p c = true -> q c = true) -> inside q r.
Proof.
  intros H Hq s n Hn. rewrite H in Hn. destruct s as [|c s]; [destruct Hn|]. cbn in Hn. destruct (p c) eqn:E; [|destruct Hn].
  destruct Hn as [<-|[]]. cbn. rewrite (Hq c E). now destruct s.
Qed.
Lemma take_add n m : forall s, take (n + m) s = append (take n s) (take m (drop n s)).
Proof. induction n as [|n IH]; intros [|c s]; cbn; auto; [now destruct m|]. now rewrite IH. Qed.
Lemma inside_seq q a b : inside q a -> inside q b -> inside q (RSeq a b).
Proof.
  intros Ha Hb s n Hn. rewrite matches_seq in Hn. apply in_flat_map in Hn as (k & Hk & Hn). apply in_map_iff in Hn as (m & <- & Hm).
  rewrite take_add, every_app, (Ha s k Hk). apply (Hb _ _ Hm).
Qed.
Lemma inside_star q a : inside q a -> inside q (RStar a).
Proof.
  intros Ha s n. change (matches (RStar a) s) with (star_from a (S (String.length s)) s). generalize (S (String.length s)) as k. intros k. revert s n.
  induction k as [|k IH]; intros s n Hn.
  - destruct Hn as [<-|[]]. now destruct s.
  - cbn [star_from] in Hn. apply in_app_iff in Hn as [Hn|[<-|[]]]; [|now destruct s]. apply in_flat_map in Hn as ([|j] & Hj & Hn); [destruct Hn as [<-|[]]; now destruct s|].
    apply in_map_iff in Hn as (m & <- & Hm). rewrite take_add, every_app, (Ha s _ Hj). apply (IH _ _ Hm).
Qed.
Lemma name_inside : inside name_char name_re.
Proof.
  assert (W : forall c, word_char c = true -> name_char c = true) by (intros c H; unfold name_char; now rewrite H).
  assert (Hc : inside name_char word_class) by (apply (inside_single _ _ _ single_word_class W)).
  assert (Hh : inside name_char hyphen) by (apply (inside_single _ _ _ single_hyphen); intros c H; apply Ascii.eqb_eq in H as <-; reflexivity).
  repeat (apply inside_seq || apply inside_star || assumption). apply (inside_single _ _ _ single_one_word W).
Qed.
Lemma matched_names s m : py_match name_pattern s = Ok (Some m) -> every_char name_char m = true /\ exists rest, s = append m rest.
Proof.
  intros H. split; [|now apply py_match_prefix in H]. unfold py_match in H. rewrite name_compiled in H. unfold re_match in H.
  destruct (matches name_re s) as [|n l] eqn:E; [discriminate|]. cbn in H. injection H as <-. apply name_inside. rewrite E. now left.
Qed.

(** ** the rules *)
Definition the_rules : list crule := flat_map create_rule_variants sir_grammar.
Lemma rule_listed r : in_grammar sir_grammar r <-> In r the_rules.
Proof.
  unfold in_grammar, the_rules. rewrite in_flat_map. split; intros (r0 & H0 & V); exists r0; split; auto; now apply (proj1 (variants_spec r0)).
Qed.
Notation "'cnn'" := (phrase "common_noun_name" []).
Notation "'art'" := (phrase "a" []).
(** what matters of a rule: what it is about, its constituents and its meaning *)
Definition view (r : crule) := (g_ante r, g_cons r, g_mean r).
Definition views : list (constituent * list constituent * meaning) :=
  map view [s_statement; st_every; st_any; st_a] ++
  [ (phrase "s" [], [quoted "is"; space; art; space; cnn; space; art; space; cnn; optional_space; quoted "?"], g_mean s_is);
    (phrase "s" [], [quoted "is"; space; art; space; cnn; space; art; space; cnn; quoted "?"], g_mean s_is) ] ++
  map view [a_rule "a"; a_rule "an"; cnn_name; cnn_plural; name_rule].
Lemma views_listed : map view the_rules = views.
Proof. reflexivity. Qed.
Lemma rule_view r : in_grammar sir_grammar r -> In (view r) views.
Proof. intros H. rewrite <- views_listed. apply in_map. now apply rule_listed. Qed.
Lemma view_rule v : In v views -> exists r, in_grammar sir_grammar r /\ view r = v.
Proof. intros H. rewrite <- views_listed in H. apply in_map_iff in H as (r & E & H). exists r. split; auto. now apply rule_listed. Qed.

(** ** what trees mean *)

Definition composes (t : ctree) (v : value) : Prop :=
  (forall n, check_for_sem t n = (Ok tt, n)) /\ forall n, compose t [] n = (Ok (v, [], VList []), n).
(** the values a child gives to the rule *)
Inductive piece : ctree -> list value -> Prop :=
| piece_word cat form r : form <> "" -> m_sem (g_mean r) = None -> piece (Node cat [] form r) []
| piece_token cat form r s : form <> "" -> g_mean r = scanned (Some s) -> piece (Node cat [] form r) [VStr s]
| piece_phrase cat c cs form r v : composes (Node cat (c :: cs) form r) v -> piece (Node cat (c :: cs) form r) [v].

Lemma piece_check t vs : piece t vs -> forall n, check_for_sem t n = (Ok tt, n).
Proof.
  intros [cat form r Hf Hm|cat form r s Hf Hm|cat c cs form r v (H & _)] n; auto; cbn [check_for_sem]; apply String.eqb_neq in Hf; rewrite Hf; reflexivity.
Qed.
Lemma pieces_loop ts vss : Forall2 piece ts vss -> forall cs, length cs = length ts -> (forall c, In c cs -> k_args c = []) ->
  forall sems exe n, children_loop [] ts cs sems [] exe n = (Ok (sems ++ concat vss, [], exe), n).
Proof.
  induction 1 as [|t vs ts vss Ht F IH]; intros [|c cs] L Ha sems exe n; try discriminate L.
  - cbn. now rewrite app_nil_r.
  - injection L as L. assert (Ha' : forall c, In c cs -> k_args c = []) by (intros d Hd; apply Ha; now right).
    destruct Ht as [cat form r Hf Hm|cat form r s Hf Hm|cat d ds form r v (_ & Hc)]; cbn [children_loop]; fold (children_loop []).
    + rewrite Hm. rewrite IH by auto. reflexivity.
    + rewrite Hm. cbn [scanned m_sem]. unfold bind at 1. cbn [call]. unfold call. cbn. rewrite IH by auto. rewrite <- app_assoc. reflexivity.
    + rewrite (Ha c (or_introl eq_refl)). cbn [lookup_all]. unfold bind at 1. cbn [ret]. unfold bind at 1. rewrite Hc. unfold bind at 1. cbn [snd fst].
      unfold extend. cbn [Composer.elements]. unfold ret. cbn [app]. rewrite IH by auto. cbn [concat app]. rewrite <- app_assoc, app_nil_r. reflexivity.
Qed.

(** a value without variables *)
Definition plain (v : value) : Prop := (forall n, extend_map_with_semantics [] v n = (Ok [], n)) /\ unify_variables [] v = v.

Lemma composed_phrase cat ts vss r f v : Forall2 piece ts vss -> ts <> [] -> length (g_cons r) = length ts ->
  k_args (g_ante r) = [] -> (forall c, In c (g_cons r) -> k_args c = []) ->
  g_mean r = mkMeaning (Some f) None (DAtoms []) -> f (concat vss) = Ok v -> plain v ->
  piece (Node cat ts "" r) [v].
Proof.
  intros F Ne L A1 A2 Hm Hf (P1 & P2).
  assert (Hc : composes (Node cat ts "" r) v).
  { split.
    - intros n. cbn [check_for_sem]. rewrite Hm. cbn. unfold bind, ret. clear Ne L. induction F as [|t vs ts vss Ht F IH] in f, Hf |- *; [reflexivity|].
      unfold bind in *. rewrite (piece_check t vs Ht). apply (IH (fun _ => Ok v) eq_refl).
    - intros n. rewrite compose_eq. unfold bind at 1.
      assert (E : create_map r [] n = (Ok [], n)).
      { unfold create_map. rewrite A1. unfold bind. cbn [map_antecedent ret]. clear L. revert A2. generalize (g_cons r) as cs.
        induction cs as [|c cs IH]; intros A2; [reflexivity|]. cbn [foldM]. unfold bind. rewrite (A2 c (or_introl eq_refl)). cbn [foldM ret].
        apply IH. intros d Hd. apply A2. now right. }
      rewrite E. unfold bind at 1. rewrite (pieces_loop ts vss F _ L A2). cbn [fst snd app]. unfold compose_node, call_sem. rewrite Hm. cbn [m_sem m_exec m_dialog].
      unfold bind at 1. unfold call. rewrite Hf. unfold bind at 1. cbn [ret]. unfold bind at 1. cbn [ret app]. unfold bind at 1. rewrite P1. cbn [ret map].
      rewrite P2. reflexivity. }
  destruct ts as [|t ts]; [congruence|]. now constructor.
Qed.

(** ** the trees of a text *)
Section Text.
  Variable text : string.
  Notation deriv := (derives scanned py_match (in_grammar sir_grammar) text).
  Notation deriv_all := (derives_all scanned py_match (in_grammar sir_grammar) text).

  (** [w] is the text from [i] to [j] *)
  Definition span (i j : nat) (w : string) : Prop := drop i text = append w (drop j text).
  Lemma span_app i j k v w : span i j v -> span j k w -> span i k (append v w).
  Proof. unfold span. intros E1 E2. now rewrite E1, E2, app_assoc_s. Qed.
  Lemma stands_span i w : stands_at text i w -> span i (i + String.length w) w.
  Proof. unfold stands_at, span. intros H. rewrite <- (take_drop (String.length w) (drop i text)), H, drop_drop. reflexivity. Qed.

  Lemma rule_category r c : in_grammar sir_grammar r -> same_kind (g_ante r) c -> k_type c = PRelation.
  Proof.
    intros Hr (_ & _ & Ht). rewrite <- Ht. apply rule_view in Hr. unfold views in Hr. cbn [map app In] in Hr.
    repeat (destruct Hr as [Hr|Hr]; [unfold view in Hr; injection Hr as Ea _ _; rewrite <- Ea; reflexivity|]). destruct Hr.
  Qed.
  Lemma derived_word w b i j t : w <> "" -> deriv (mkCons w [] PWord false b) i j t \/ deriv (mkCons w [] PWord true b) i j t ->
    exists v, lower v = w /\ span i j v /\ piece t [].
  Proof.
    intros Nw [D|D]; inversion D as [c i' v r T St Lw Le|c i' m v r T|c i' j' r ts Hr Sk]; subst;
      try discriminate T; try (apply rule_category in Sk; auto; discriminate Sk).
    - exists v. split; [exact Lw|]. split; [now apply stands_span|]. constructor; [exact Nw|]. destruct Le as (_ & E & _). now rewrite E.
    - exists v. split; [exact Lw|]. split; [now apply stands_span|]. constructor; [exact Nw|]. destruct Le as (_ & E & _). now rewrite E.
  Qed.
  Lemma derived_token i j t : deriv (mkCons name_pattern [] PRegExp false false) i j t ->
    exists w, w <> "" /\ every_char name_char w = true /\ span i j w /\ piece t [VStr w].
  Proof.
    intros D. inversion D as [c i' v r T St Lw Le|c i' m v r T Hm (rest & Em) Nv Le|c i' j' r ts Hr Sk]; subst; try discriminate T;
      try (apply rule_category in Sk; auto; discriminate Sk).
    exists v. split; [exact Nv|]. cbn [k_pred] in Hm. destruct (matched_names _ _ Hm) as (Hn & rest' & Es). rewrite every_app in Hn. apply andb_true_iff in Hn as (Hn & _).
    split; [exact Hn|]. split.
    - unfold span. rewrite <- drop_drop, Es, app_assoc_s, drop_app. reflexivity.
    - constructor; [exact Nv|]. apply Le.
  Qed.

  (** what a phrase is made of *)
  Lemma derived_rule p i j t : deriv (phrase p []) i j t -> exists r ts cs m, In (phrase p [], cs, m) views /\
    t = Node p ts "" r /\ g_ante r = phrase p [] /\ g_cons r = cs /\ g_mean r = m /\ deriv_all cs i j ts.
  Proof.
    intros D. inversion D as [c i' v r T|c i' m v r T|c i' j' r ts Hr Sk Da]; subst; try discriminate T.
    exists r, ts, (g_cons r), (g_mean r). assert (E : g_ante r = phrase p []).
    { apply rule_view in Hr. destruct Sk as (Ek & _). cbn [k_pred phrase] in Ek. unfold views in Hr. cbn [map app In] in Hr.
      repeat (destruct Hr as [Hr|Hr]; [unfold view in Hr; injection Hr as Ea _ _; rewrite <- Ea in *; cbn in Ek; now rewrite <- Ek|]). destruct Hr. }
    rewrite <- E at 1. split; [now apply rule_view in Hr|]. auto 10.
  Qed.
End Text.
