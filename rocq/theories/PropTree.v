(** * Property C102: a printed parse tree tells which tree it is *)

From Coq Require Import ZArith String Ascii List Bool Arith Lia.
From Verif Require Import Py Effects Grammar Earley ParserSpec EarleyProofs3 ParserFacts Composer PropParser Logger TreeText TreeTextSpec TreeTextProofs
  LexerProofs RegexProofs2 ExampleWorld PropComposer PropSystem.
Import ListNotations.
Local Open Scope string_scope.

Definition root_form (t : ctree) : string := match t with Node _ _ form _ => form end.

(** ** [str(tree)] *)

(** If two trees look the same, then they have the same words and phrases with
    the same categories, in the same places. *)
Theorem C102_lines_tell_the_tree : forall t1 t2, root_form t1 = "" -> root_form t2 = "" ->
  clear_lines (outline_of t1) -> clear_lines (outline_of t2) ->
  tree_str t1 = tree_str t2 -> outline_of t1 = outline_of t2.
Proof.
  intros [c1 l1 f1 r1] [c2 l2 f2 r2] F1 F2 H1 H2 E. cbn [root_form] in F1, F2. subst f1 f2. cbn [outline_of] in *.
  inversion H1 as [|? ? A1 A2]; inversion H2 as [|? ? B1 B2]; subst. unfold tree_str in E.
  apply (split_at [newline]) in E; try (apply (without_fewer _ ["'"; newline]%char); [cbn; tauto|assumption]);
    try (eexists newline, _; split; [reflexivity|now left]).
  destruct E as [-> E]. apply app_head in E. rewrite !lines_outline in E.
  pose proof (parts_all (Phrase c2 (map outline_of l1)) "" (map outline_of l2) "" "" A2 B2 (or_introl eq_refl) (or_introl eq_refl)) as H.
  rewrite !str_app_nil in H. destruct (H E) as [-> _]. reflexivity.
Qed.
Print Assumptions C102_lines_tell_the_tree.

(** ** [tree.inline_str()] *)

(** On one line, the spaces between the words are not to be seen. *)
Theorem C102_one_line_tells_the_tree : forall t1 t2, root_form t1 = "" -> root_form t2 = "" ->
  clear_text (outline_of t1) -> clear_text (outline_of t2) ->
  inline_str t1 = inline_str t2 -> tidy (outline_of t1) = tidy (outline_of t2).
Proof.
  intros [c1 l1 f1 r1] [c2 l2 f2 r2] F1 F2 H1 H2 E. cbn [root_form] in F1, F2. subst f1 f2.
  rewrite !inline_outline in E by reflexivity.
  apply (otext_inj _ _ "" "" H1 H2); [reflexivity|reflexivity|]. now rewrite E.
Qed.
Print Assumptions C102_one_line_tells_the_tree.

(** ** the trees of the parser *)

(** the names of the grammar: no line ends, and no quotes in the categories of
    phrases *)
Definition printable (rules : list crule) : Prop := forall r, In r rules ->
  without ["'"; newline]%char (k_pred (g_ante r)) /\ forall c, In c (g_cons r) -> without [newline] (k_pred c).

(** the words of a tree, one after the other *)
Fixpoint words (o : outline) : string :=
  match o with Word _ f => f | Phrase _ parts => fold_right (fun p s => words p ++ s) "" parts end.

Lemma normalize_chars text : forall b c x y, squeeze b text = x ++ String c y -> c = " "%char \/ (is_space c = false /\ exists a z, text = a ++ String c z).
Proof.
  induction text as [|d text IH]; intros b c x y E; [destruct x; discriminate|]. cbn [squeeze] in E.
  assert (Hmore : forall b x y, squeeze b text = x ++ String c y -> c = " "%char \/ is_space c = false /\ (exists a z, String d text = a ++ String c z)).
  { intros b' x' y' E'. destruct (IH _ _ _ _ E') as [H|(H & a & z & ->)]; [now left|right]. split; [exact H|]. now exists (String d a), z. }
  destruct (is_space d) eqn:Ed; [destruct b; [now apply (Hmore true x y)|]|]; destruct x as [|e x]; injection E as E1 E2.
  - now left.
  - now apply (Hmore true x y).
  - subst d. right. split; [exact Ed|]. now exists "", text.
  - now apply (Hmore false x y).
Qed.
Lemma lower_kept c : (lower_ascii c = "'"%char -> c = "'"%char) /\ (lower_ascii c = newline -> c = newline).
Proof. destruct c as [[] [] [] [] [] [] [] []]; vm_compute; split; intros H; try discriminate H; exact H. Qed.
Lemma lower_without w : without ["'"; newline]%char w -> without ["'"; newline]%char (lower w).
Proof.
  induction w as [|c w IH]; intros H; [exact H|]. apply without_cons in H. apply without_cons. split; [|tauto].
  intros Hc. apply (proj1 H). destruct Hc as [Hc|[Hc|[]]]; symmetry in Hc; apply lower_kept in Hc; subst c; cbn; auto.
Qed.
Lemma without_drop bad i : forall s, without bad s -> without bad (drop i s).
Proof. induction i as [|i IH]; intros [|c s] H; auto. apply without_cons in H. apply IH. tauto. Qed.
Lemma without_take bad n : forall s, without bad s -> without bad (take n s).
Proof.
  induction n as [|n IH]; intros [|c s] H; try (intros d Hd [|] b ?; discriminate). cbn. apply without_cons in H. apply without_cons. split; [tauto|]. apply IH. tauto.
Qed.
Lemma without_prefix bad a b : without bad (a ++ b) -> without bad a.
Proof. intros H c Hc x y ->. apply (H c Hc x (y ++ b)). now rewrite str_app_assoc. Qed.
Lemma variant_sub first cs v : variant first cs v -> forall c, In c v -> In c cs.
Proof. induction 1; cbn; firstorder. Qed.

Section Trees.
  Variable scan_mean : option string -> meaning.
  Variable delta_mean gamma_mean : meaning.
  Variable re_match : string -> string -> outcome (option string).
  Notation parse := (parser_process scan_mean delta_mean gamma_mean re_match).

  Lemma derives_clear rules text : re_ok re_match -> printable rules -> without ["'"; newline]%char text ->
    (forall c i j t, derives scan_mean re_match (in_grammar rules) text c i j t -> without [newline] (k_pred c) ->
       clear_lines (outline_of t) /\ (k_type c = PRelation -> root_form t = "") /\ spell t = words (outline_of t)) /\
    (forall cs i j ts, derives_all scan_mean re_match (in_grammar rules) text cs i j ts -> (forall c, In c cs -> without [newline] (k_pred c)) ->
       Forall clear_lines (map outline_of ts) /\ fold_right (fun t s => append (spell t) s) "" ts = fold_right (fun p s => words p ++ s) "" (map outline_of ts)).
  Proof.
    intros Hre Hp Ht. apply derives_both.
    - intros c i w r Hk Hs Hl _ Hc. assert (Hw : without ["'"; newline]%char (k_pred c)).
      { rewrite <- Hl. apply lower_without. rewrite <- Hs. apply without_take. now apply without_drop. }
      split; [|split; [congruence|cbn; destruct (k_pred c); reflexivity]].
      cbn [outline_of]. destruct (k_pred c) as [|a s] eqn:Ek; [constructor; [exact Hw|constructor]|]. constructor; [exact Hc|exact Hw].
    - intros c i m w r Hk Hm (rest & ->) Hne _ Hc. destruct (Hre _ _ _ Hm) as (rest2 & E).
      split; [|split; [congruence|cbn; destruct w; reflexivity]].
      cbn [outline_of]. destruct w as [|a s] eqn:Ek; [congruence|]. rewrite <- Ek in *. constructor; [exact Hc|].
      apply (without_prefix _ _ (rest ++ rest2)). rewrite <- str_app_assoc, <- E. now apply without_drop.
    - intros c i j r ts (r0 & Hr0 & V1 & _ & _ & _ & V2) (Hk & _ & _) _ IH Hc.
      destruct (Hp _ Hr0) as [Q1 Q2]. destruct IH as [I1 I2].
      { intros c' Hc'. apply Q2. exact (variant_sub _ _ _ V2 _ Hc'). }
      split; [|split; [reflexivity|]].
      + cbn [outline_of]. constructor; [|exact I1]. rewrite <- Hk, V1. exact Q1.
      + cbn [outline_of words]. rewrite <- I2. destruct ts; reflexivity.
    - intros i _. split; [constructor|reflexivity].
    - intros c cs i j k t ts _ IH1 _ IH2 H. destruct IH1 as (A1 & _ & A3); [apply H; now left|]. destruct IH2 as (B1 & B2); [intros; apply H; now right|].
      split; [now constructor|]. cbn. now rewrite A3, B2.
  Qed.

  (** For sentences without quotes: if the printed trees of two sentences,
      of the same grammar or of different ones, look the same, then the trees
      have the same words and phrases, and the sentences are the same but for
      capitals and white space. *)
  Theorem C102_parsed_trees : forall rules1 rules2 history1 history2 n1 n2 text1 text2 res1 res2 t1 t2,
    Forall proper_rule rules1 -> Forall proper_rule rules2 -> re_ok re_match -> printable rules1 -> printable rules2 ->
    without ["'"]%char text1 -> without ["'"]%char text2 ->
    fst (parse n1 text1 (after_parses scan_mean delta_mean gamma_mean re_match history1 (grammar_rules rules1))) = Ok res1 -> In t1 (pr_products res1) ->
    fst (parse n2 text2 (after_parses scan_mean delta_mean gamma_mean re_match history2 (grammar_rules rules2))) = Ok res2 -> In t2 (pr_products res2) ->
    tree_str t1 = tree_str t2 ->
    outline_of t1 = outline_of t2 /\ lower (normalize text1) = lower (normalize text2).
  Proof.
    intros rules1 rules2 history1 history2 n1 n2 text1 text2 res1 res2 t1 t2 P1 P2 Hre Q1 Q2 W1 W2 E1 I1 E2 I2 E.
    assert (Hone : forall rules history n text res t, Forall proper_rule rules -> printable rules -> without ["'"]%char text ->
      fst (parse n text (after_parses scan_mean delta_mean gamma_mean re_match history (grammar_rules rules))) = Ok res -> In t (pr_products res) ->
      clear_lines (outline_of t) /\ root_form t = "" /\ lower (words (outline_of t)) = lower (normalize text)).
    { clear - Hre. intros rules history n text res t P Q W E1 I1.
      destruct (C61_trees_are_derivations scan_mean delta_mean gamma_mean re_match _ _ _ _ _ _ P Hre E1 I1) as ((c & C1 & C2 & D) & S).
      assert (Wn : without ["'"; newline]%char (normalize text)).
      { intros d Hd x y En. destruct (normalize_chars _ _ _ _ _ En) as [->|(Hs & a & z & Ea)].
        - destruct Hd as [Hd|[Hd|[]]]; discriminate Hd.
        - destruct Hd as [<-|[<-|[]]]; [|discriminate Hs]. exact (W "'"%char (or_introl eq_refl) a z Ea). }
      destruct (proj1 (derives_clear rules _ Hre Q Wn) _ _ _ _ D) as (A1 & A2 & A3).
      - rewrite C1. intros d [<-|[]] [|x [|]] b Eb; discriminate.
      - split; [exact A1|]. split; [now apply A2|]. now rewrite <- A3. }
    destruct (Hone _ _ _ _ _ _ P1 Q1 W1 E1 I1) as (A1 & A2 & A3). destruct (Hone _ _ _ _ _ _ P2 Q2 W2 E2 I2) as (B1 & B2 & B3).
    assert (Eo : outline_of t1 = outline_of t2) by now apply C102_lines_tell_the_tree.
    split; [exact Eo|]. now rewrite <- A3, <- B3, Eo.
  Qed.
End Trees.
Print Assumptions C102_parsed_trees.

(** ** examples, and where texts do not tell the tree *)

Lemma without_all bad s : (forall c, In c (list_ascii_of_string s) -> ~ In c bad) -> without bad s.
Proof.
  induction s as [|d s IH]; intros H; [intros c _ [|] b ?; discriminate|]. apply without_cons. split; [apply H; now left|].
  apply IH. intros c Hc. apply H. now right.
Qed.
Ltac plain := apply without_all; cbn; intros c Hc Hd;
  repeat (destruct Hc as [<-|Hc]; [repeat (destruct Hd as [Hd|Hd]; [discriminate Hd|]); exact Hd|]); exact Hc.

Definition np_rule : crule := noun_rule "star".
Definition leaf (c f : string) : ctree := Node c [] f np_rule.
Definition phrase (c : string) (l : list ctree) : ctree := Node c l "" np_rule.
Definition some_tree : ctree := phrase "s" [phrase "np" [leaf "mary" "mary"]; leaf " " " "; phrase "vp" [leaf "\w+" "sleeps"]].
Example C102_lines_example :
  tree_str some_tree = ("s" ++ lf ++ "+- np" ++ lf ++ "|  +- mary 'mary'" ++ lf ++ "+-   ' '" ++ lf ++ "+- vp" ++ lf ++ "   +- \w+ 'sleeps'" ++ lf) /\
  inline_str some_tree = "s(np(mary 'mary') vp(\w+ 'sleeps'))" /\
  clear_lines (outline_of some_tree) /\ clear_text (outline_of some_tree) /\ root_form some_tree = "".
Proof.
  split; [reflexivity|]. split; [reflexivity|].
  split; [|split; [|reflexivity]]; repeat first [constructor|discriminate]; plain.
Qed.
Definition who_tree (text : string) : ctree :=
  match fst (parser_process scanned delta_meaning gamma_meaning python_re 200 text (grammar_rules who_grammar)) with
  | Ok r => hd some_tree (pr_products r)
  | _ => some_tree
  end.
Example C102_parsed_example :
  Forall proper_rule who_grammar /\ re_ok python_re /\ printable who_grammar /\ without ["'"]%char "Who is a  parent" /\
  (exists res, fst (parser_process scanned delta_meaning gamma_meaning python_re 200 "Who is a  parent" (grammar_rules who_grammar)) = Ok res /\
     In (who_tree "Who is a  parent") (pr_products res)) /\
  tree_str (who_tree "Who is a  parent") = tree_str (who_tree "who is a parent") /\
  tree_str (who_tree "who is a parent") <> tree_str (who_tree "who is a grandparent").
Proof.
  split; [exact who_proper|]. split; [exact py_match_prefix|]. split.
  { intros r H. cbn in H. repeat (destruct H as [<-|H]; [split; [plain|intros c Hc; cbn in Hc; repeat (destruct Hc as [<-|Hc]; [plain|]); destruct Hc]|]). destruct H. }
  split; [plain|]. split; [eexists; split; [vm_compute; reflexivity|vm_compute; now left]|]. split; [vm_compute; reflexivity|vm_compute; discriminate].
Qed.

(** trees that differ in a space only look the same on one line; those that
    begin with a space have a gap *)
Theorem C102_spaces_on_one_line_refuted :
  (exists t1 t2, inline_str t1 = inline_str t2 /\ outline_of t1 <> outline_of t2) /\
  (exists t1 t2, tidy (outline_of t1) = tidy (outline_of t2) /\ inline_str t1 <> inline_str t2).
Proof.
  split.
  - exists (phrase "s" [leaf "a" "a"; leaf "b" "b"]), (phrase "s" [leaf "a" "a"; leaf " " " "; leaf "b" "b"]). split; [reflexivity|discriminate].
  - exists (phrase "s" [leaf "a" "a"]), (phrase "s" [leaf " " " "; leaf "a" "a"]). split; [reflexivity|discriminate].
Qed.
Print Assumptions C102_spaces_on_one_line_refuted.
(** with quotes in the words both texts can belong to different trees *)
Theorem C102_quotes_refuted :
  (exists t1 t2, inline_str t1 = inline_str t2 /\ tidy (outline_of t1) <> tidy (outline_of t2)) /\
  (exists t1 t2, tree_str t1 = tree_str t2 /\ outline_of t1 <> outline_of t2).
Proof.
  split.
  - exists (phrase "s" [leaf "w" "a"; leaf "w" "b"]), (phrase "s" [leaf "w" "a' w 'b"]). split; [reflexivity|discriminate].
  - exists (phrase "s" [leaf "w '" "a"]), (phrase "s" [leaf "w" " 'a"]). split; [reflexivity|discriminate].
Qed.
Print Assumptions C102_quotes_refuted.
