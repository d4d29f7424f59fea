(** * The first tree of a sentence *)

From Coq Require Import ZArith String Ascii List Bool Arith Lia Sorting.Sorted Sorting.Permutation.
From Verif Require Import Py Effects EffectsFacts Grammar Earley ParserSpec ParserFacts GrammarProofs EarleyProofs EarleyProofs3 EarleyProofs4 EarleyProofs5 EarleyProofs6 PropParser PropRegex LexerProofs RegexProofs2
  InferenceModule Composer ComposerProofs2 QuestionSystem PropSystem FragmentModel SirSpec SirProofs WikidataProofs3 WordReading WordReading2.
Import ListNotations.
Local Open Scope nat_scope.
Local Open Scope string_scope.
Local Open Scope list_scope.

(** ** counting *)
Definition tokens_all {W} (ss : list (shape W)) : nat := fold_right (fun s n => tokens s + n) 0 ss.
Lemma tokens_map {A B} (f : A -> B) : forall s, tokens (shape_map f s) = tokens s.
Proof.
  fix IH 1. intros [w|w|k ss]; [reflexivity|reflexivity|]. cbn [shape_map tokens].
  induction ss as [|s ss IHs]; [reflexivity|]. cbn [map fold_right]. now rewrite IH, IHs.
Qed.
Section Counts.
  Variable rules : list crule.
  Hypothesis Hboost : forall r, In r rules -> g_boost r = 0%Z.
  Hypothesis Hante : forall r, In r rules -> k_type (g_ante r) = PRelation.

  Definition boosts (ts : list ctree) : Z := fold_right Z.add 0%Z (map g_boost (flat_map nodes ts)).
  Definition regexps (ts : list ctree) : nat := length (filter (fun r => ptype_eqb (k_type (g_ante r)) PRegExp) (flat_map nodes ts)).
  Lemma boosts_cons t ts : boosts (t :: ts) = (total_boost t + boosts ts)%Z.
  Proof. unfold boosts, total_boost. cbn [flat_map]. now rewrite map_app, sum_app. Qed.
  Lemma regexps_cons t ts : regexps (t :: ts) = regexp_nodes t + regexps ts.
  Proof. unfold regexps, regexp_nodes. cbn [flat_map]. now rewrite filter_app, app_length. Qed.
  Lemma node_boost cat ts form r : total_boost (Node cat ts form r) = (g_boost r + boosts ts)%Z.
  Proof. reflexivity. Qed.
  Lemma node_regexps cat ts form r : regexp_nodes (Node cat ts form r) = (if ptype_eqb (k_type (g_ante r)) PRegExp then 1 else 0) + regexps ts.
  Proof. unfold regexp_nodes, regexps. cbn [nodes filter]. destruct (ptype_eqb _ _); reflexivity. Qed.

  Lemma reads_counted :
    (forall c us s t, reads rules c us s t -> total_boost t = 0%Z /\ regexp_nodes t = tokens s) /\
    (forall cs us ss ts, reads_all rules cs us ss ts -> boosts ts = 0%Z /\ regexps ts = tokens_all ss).
  Proof.
    apply (reads_both rules).
    - intros c u r _ _ T B _. rewrite node_boost, node_regexps, B, T. auto.
    - intros c u r _ _ _ T B _. rewrite node_boost, node_regexps, B, T. auto.
    - intros c us k r cs ss ts Hk _ _ _ (B & N). apply nth_error_In in Hk. rewrite node_boost, node_regexps, (Hboost r Hk), (Hante r Hk), B, N. auto.
    - intros c us s t _ (B & N). rewrite boosts_cons, regexps_cons, B, N. auto.
    - intros c cs us1 us2 s ss t ts r _ (B & N) T Br _ _ (B' & N'). rewrite !boosts_cons, !regexps_cons, node_boost, node_regexps, B, N, B', N', T, Br. auto.
  Qed.
End Counts.

Lemma same_tree_regexps : forall t t' : ctree, same_tree t t' -> regexp_nodes t = regexp_nodes t'.
Proof.
  intros t. induction t as [cat ts form r IH] using tree_ind'. intros t' H. inversion H as [? ? ? r' K M|? ? ts' ? ? r' K F]; subst; rewrite !node_regexps.
  - destruct K as (_ & _ & ->). reflexivity.
  - destruct K as (_ & (_ & _ & ->) & _). f_equal. clear H. induction F as [|x y l l' Hx _ IHf]; [reflexivity|]. inversion IH as [|? ? H1 H2]; subst.
    rewrite !regexps_cons. now rewrite (H1 y Hx), IHf.
Qed.
Lemma first_is_best (l : list ctree) t ts t' : sort_trees l = t :: ts -> In t' (sort_trees l) -> total_boost t = 0%Z -> total_boost t' = 0%Z -> regexp_nodes t <= regexp_nodes t'.
Proof.
  intros E Hi B B'. destruct (C67_trees_are_ordered l) as (_ & H). rewrite E in *. destruct Hi as [->|Hi]; [lia|]. inversion H as [|? ? _ F]; subst. rewrite Forall_forall in F.
  destruct (F t' Hi) as [X|(_ & [X|(X & _)])]; lia.
Qed.

(** ** what is listed is there *)
Lemma all_some_from {A} (l : list (option (list A))) y a : all_some l = Some y -> In a y -> exists x, In (Some x) l /\ In a x.
Proof.
  revert y. induction l as [|[x|] l IH]; intros y H Ha; cbn in H; try discriminate H; [injection H as <-; destruct Ha|].
  destruct (all_some l) as [z|]; [|discriminate H]. injection H as <-. apply in_app_iff in Ha as [Ha|Ha]; [exists x; split; [now left|exact Ha]|].
  destruct (IH z eq_refl Ha) as (x' & H1 & H2). exists x'. split; [now right|exact H2].
Qed.
Lemma splits_from {W} (ws a b : list W) : In (a, b) (splits ws) -> ws = a ++ b.
Proof.
  revert a b. induction ws as [|w ws IH]; intros a b H; [destruct H|]. cbn [splits] in H. destruct ws as [|w' ws]; [destruct H|].
  destruct H as [[= <- <-]|H]; [reflexivity|]. apply in_map_iff in H as ((a' & b') & [= <- <-] & H). apply IH in H. rewrite H. reflexivity.
Qed.
Lemma by_rules_from {W} one c (ws : list W) table : forall k0 l, In (Some l) (by_rules one c ws k0 table) -> l <> [] ->
  exists k a cs y, nth_error table k = Some (a, cs) /\ kind_eqb a c = true /\ shapes_all one cs ws = Some y /\ l = map (SNode (k0 + k)) y.
Proof.
  induction table as [|(a & cs) table IH]; intros k0 l H N; [destruct H|]. cbn [by_rules] in H. destruct H as [H|H].
  - destruct (kind_eqb a c) eqn:K; [|injection H as <-; congruence]. destruct (shapes_all one cs ws) as [y|] eqn:E; [|discriminate H]. injection H as <-.
    exists 0, a, cs, y. rewrite Nat.add_0_r. auto.
  - destruct (IH (S k0) l H N) as (k & a' & cs' & y & H1 & H2 & H3 & H4). exists (S k), a', cs', y. rewrite Nat.add_succ_r. auto.
Qed.
Lemma kind_eqb_from a b : kind_eqb a b = true -> same_kind a b.
Proof.
  unfold kind_eqb, same_kind. rewrite !andb_true_iff. intros ((E1 & E2) & E3). apply String.eqb_eq in E1. apply Nat.eqb_eq in E2. apply ptype_eqb_eq in E3. auto.
Qed.

(** the leaves that the parser makes *)
Definition word_leaf (c : constituent) : ctree := Node (k_pred c) [] (k_pred c) (new_rule c [quoted (k_pred c)] (scanned None) 0).
Definition token_leaf (c : constituent) (u : string) : ctree := Node (k_pred c) [] u (new_rule c [quoted u] (scanned (Some u)) 0).
Section Build.
  Variable rules : list crule.
  Fixpoint build (c : constituent) (s : shape string) : ctree :=
    match s with
    | SWord _ => word_leaf c
    | SToken u => token_leaf c u
    | SNode k ss =>
        match nth_error rules k with
        | Some r =>
            Node (k_pred c)
              ((fix all (l : list constituent) (ss : list (shape string)) {struct ss} : list ctree :=
                  match ss with
                  | [] => []
                  | s :: ss' =>
                      match l with
                      | [] => []
                      | c :: l' => build c s :: match l' with [] => [] | sp :: l'' => word_leaf sp :: all l'' ss' end
                      end
                  end) (g_cons r) ss) "" r
        | None => word_leaf c
        end
    end.
  Fixpoint build_all (l : list constituent) (ss : list (shape string)) {struct ss} : list ctree :=
    match ss with
    | [] => []
    | s :: ss' =>
        match l with
        | [] => []
        | c :: l' => build c s :: match l' with [] => [] | sp :: l'' => word_leaf sp :: build_all l'' ss' end
        end
    end.
  Lemma build_node c k ss r : nth_error rules k = Some r -> build c (SNode k ss) = Node (k_pred c) (build_all (g_cons r) ss) "" r.
  Proof. intros E. cbn [build]. rewrite E. reflexivity. Qed.
End Build.

Section Sound.
  Context {W : Type}.
  Variable is : W -> string -> bool.
  Variable free : W -> bool.
  Variable str : W -> string.
  Variable rules : list crule.
  Variable table : list (constituent * list constituent).
  Hypothesis Htable : forall k a cs, nth_error table k = Some (a, cs) -> exists r, nth_error rules k = Some r /\ g_ante r = a /\ spread_of (g_cons r) cs /\ Forall readable cs.
  Variable grammar : list crule.
  Hypothesis Hrules : forall r, In r rules -> in_grammar grammar r.
  Hypothesis Hword : forall w q, is w q = true -> lower (str w) = q.
  Hypothesis Hfree : forall w, free w = true -> str w <> "" /\ every_char word_char (str w) = true.
  Variable text : string.
  Notation deriv := (derives scanned py_match (in_grammar grammar) text).
  Notation deriv_all := (derives_all scanned py_match (in_grammar grammar) text).

  Definition stops (rest : string) : Prop := rest = "" \/ exists t, rest = String " " t.
  Lemma stops_not_word rest : stops rest -> not_word rest.
  Proof. intros [->|(t & ->)]; [exact I|reflexivity]. Qed.
  Lemma spaced_app a b : a <> [] -> b <> [] -> spaced (a ++ b) = append (spaced a) (String " " (spaced b)).
  Proof.
    induction a as [|u a IH]; intros Na Nb; [congruence|]. destruct a as [|u' a].
    - cbn [app]. rewrite spaced_cons. destruct b; [congruence|]. cbn [after_word]. reflexivity.
    - assert (E : after_word ((u' :: a) ++ b) = String " " (spaced ((u' :: a) ++ b))) by reflexivity.
      change ((u :: u' :: a) ++ b) with (u :: ((u' :: a) ++ b)). rewrite spaced_cons, E, IH by (discriminate || exact Nb). rewrite (spaced_cons u (u' :: a)). cbn [after_word].
      rewrite app_assoc_s. reflexivity.
  Qed.
  Lemma listed_derives n : forall c vs l s, readable c -> shapes is free table n c vs = Some l -> In s l ->
    vs <> [] /\ regexp_nodes (build rules c (shape_map str s)) = tokens s /\ forall i rest, drop i text = append (spaced (map str vs)) rest -> stops rest ->
      deriv c i (i + String.length (spaced (map str vs))) (build rules c (shape_map str s)).
  Proof.
    induction n as [|n IH]; intros c vs l s Hc H Hs; [discriminate H|]. cbn [shapes] in H. unfold readable in Hc. destruct (k_type c) eqn:T.
    - (* phrase *)
      destruct (all_some_from _ _ _ H Hs) as (x & Hx & Hsx). destruct (by_rules_from _ _ _ _ _ _ Hx ltac:(intros ->; destruct Hsx)) as (k & a & cs & y & Hk & K & Ey & ->).
      apply in_map_iff in Hsx as (ss & <- & Hss). cbn [plus]. destruct (Htable _ _ _ Hk) as (r & Hr & Ea & Hsp & Hrd). apply kind_eqb_from in K. rewrite <- Ea in K.
      assert (HA : forall l' cs', spread_of l' cs' -> Forall readable cs' -> forall vs y ss, shapes_all (shapes is free table n) cs' vs = Some y -> In ss y ->
        vs <> [] /\ regexps (build_all rules l' (map (shape_map str) ss)) = tokens_all ss /\ forall i rest, drop i text = append (spaced (map str vs)) rest -> stops rest ->
          deriv_all l' i (i + String.length (spaced (map str vs))) (build_all rules l' (map (shape_map str) ss))).
      { clear - IH Htable. induction 1 as [c|c s l cs Hp Ht Hsp0 IHs]; intros Hrd vs y ss E Hin.
        - inversion Hrd as [|? ? Hc _]; subst. cbn [shapes_all] in E. destruct (shapes is free table n c vs) as [z|] eqn:Ez; [|discriminate E]. injection E as <-.
          apply in_map_iff in Hin as (s & <- & Hs). destruct (IH c vs z s Hc Ez Hs) as (Nv & Ct & Hd). split; [exact Nv|]. cbn [map build_all]. split; [rewrite regexps_cons, Ct; reflexivity|]. intros i rest Hi Hr.
          econstructor; [now apply (Hd i rest)|constructor].
        - inversion Hrd as [|? ? Hc Hrd']; subst. cbn [shapes_all] in E. destruct cs as [|c2 cs]; [inversion Hsp0|].
          destruct (all_some_from _ _ _ E Hin) as (x & Hx & Hsx). apply in_map_iff in Hx as ((v1 & v2) & Ex & Hsp). cbn [fst snd] in Ex. apply splits_from in Hsp. subst vs.
          destruct (shapes is free table n c v1) as [z|] eqn:Ez; [|discriminate Ex]. destruct z as [|z0 z]; [injection Ex as <-; destruct Hsx|].
          destruct (shapes_all (shapes is free table n) (c2 :: cs) v2) as [z2|] eqn:Ez2; [|discriminate Ex]. cbn [option_map] in Ex. injection Ex as Ex. change (flat_map (fun s => map (cons s) z2) (z0 :: z) = x) in Ex. subst x.
          apply in_flat_map in Hsx as (s1 & Hs1 & Hss). apply in_map_iff in Hss as (ss2 & <- & Hss2).
          destruct (IH c v1 (z0 :: z) s1 Hc Ez Hs1) as (N1 & Ct1 & Hd1). destruct (IHs Hrd' v2 z2 ss2 Ez2 Hss2) as (N2 & Ct2 & Hd2).
          split; [destruct v1; [congruence|discriminate]|]. cbn [map build_all].
          split; [rewrite !regexps_cons, Ct1, Ct2; unfold word_leaf; rewrite node_regexps; cbn [new_rule g_ante]; rewrite Ht; reflexivity|]. intros i rest Hi Hr.
          rewrite map_app in Hi |- *. assert (M1 : map str v1 <> []) by (destruct v1; [congruence|discriminate]). assert (M2 : map str v2 <> []) by (destruct v2; [congruence|discriminate]).
          rewrite spaced_app in Hi |- * by assumption. rewrite app_assoc_s in Hi. cbn [append] in Hi.
          set (w1 := spaced (map str v1)) in *. set (w2 := spaced (map str v2)) in *.
          assert (D1 : deriv c i (i + String.length w1) (build rules c (shape_map str s1))) by (apply (Hd1 i (String " " (append w2 rest))); [exact Hi|right; eauto]).
          assert (E1 : drop (i + String.length w1) text = String " " (append w2 rest)) by (rewrite <- drop_drop, Hi; apply drop_app).
          assert (Dsp : deriv s (i + String.length w1) (i + String.length w1 + 1) (word_leaf s)).
          { unfold word_leaf. apply (derives_word scanned py_match _ text s _ " "); [exact Ht| |now rewrite Hp|repeat split]. unfold stands_at. rewrite E1. reflexivity. }
          assert (E2 : drop (i + String.length w1 + 1) text = append w2 rest) by (rewrite <- drop_drop, E1; reflexivity).
          specialize (Hd2 _ _ E2 Hr). replace (i + String.length (append w1 (String " " w2))) with (i + String.length w1 + 1 + String.length w2) by (rewrite len_app; cbn [String.length]; lia).
          econstructor; [exact D1|]. econstructor; [exact Dsp|]. exact Hd2. }
      destruct (HA (g_cons r) cs Hsp Hrd vs y ss Ey Hss) as (Nv & Ct & Hd). split; [exact Nv|]. cbn [shape_map].
      rewrite (build_node rules c k _ r Hr). split; [rewrite node_regexps, Ct; destruct K as (_ & _ & ->); rewrite T; reflexivity|]. intros i rest Hi Hst. apply derives_rule; [apply Hrules; now apply nth_error_In in Hr|exact K|]. now apply (Hd i rest).
    - (* word *)
      injection H as <-. destruct vs as [|w [|w' vs]]; try (destruct Hs; fail). destruct (is w (k_pred c)) eqn:E; [|destruct Hs]. destruct Hs as [<-|[]].
      split; [discriminate|]. split; [cbn [shape_map build tokens]; unfold word_leaf, token_leaf; rewrite node_regexps; cbn [new_rule g_ante]; rewrite T; reflexivity|].
      intros i rest Hi Hr. cbn [map shape_map build spaced String.concat] in *. apply derives_word; [exact T| |now apply Hword|repeat split].
      unfold stands_at. rewrite Hi. apply take_app.
    - (* token *)
      injection H as <-. destruct vs as [|w [|w' vs]]; try (destruct Hs; fail). destruct (free w) eqn:E; [|destruct Hs]. destruct Hs as [<-|[]].
      split; [discriminate|]. split; [cbn [shape_map build tokens]; unfold word_leaf, token_leaf; rewrite node_regexps; cbn [new_rule g_ante]; rewrite T; reflexivity|].
      intros i rest Hi Hr. cbn [map shape_map build spaced String.concat] in *. destruct (Hfree w E) as (Nw & Hw).
      apply (derives_regexp scanned py_match _ text c i (str w) (str w)); [exact T| | |exact Nw|repeat split].
      + rewrite Hc, Hi. apply word_matched; [exact Nw|now rewrite all_word_every|now apply stops_not_word].
      + exists "". now rewrite app_nil_s.
  Qed.
End Sound.

(** ** only the meaning of a leaf matters to the composer *)
Definition bare (m : meaning) : crule := new_rule (quoted "") [] m 0.
Fixpoint norm (t : ctree) : ctree :=
  match t with
  | Node cat ts form r => match ts with [] => Node cat [] form (bare (g_mean r)) | _ => Node cat (map norm ts) form r end
  end.
Definition branches (t : ctree) : Prop := match t with Node _ ts _ _ => ts <> [] end.
Lemma norm_node cat ts form r : ts <> [] -> norm (Node cat ts form r) = Node cat (map norm ts) form r.
Proof. destruct ts; [congruence|reflexivity]. Qed.

Lemma reads_built rules : (forall c us s t, reads rules c us s t -> norm t = norm (build rules c s) /\ (forall k ss, s = SNode k ss -> branches t /\ branches (build rules c s))) /\
  (forall cs us ss ts, reads_all rules cs us ss ts -> forall l, spread_of l cs -> map norm ts = map norm (build_all rules l ss) /\ ts <> [] /\ build_all rules l ss <> []).
Proof.
  apply (reads_both rules).
  - intros c u r _ _ _ _ M. split; [|discriminate]. cbn [build]. unfold word_leaf, token_leaf. cbn [norm]. rewrite M. reflexivity.
  - intros c u r _ _ _ _ _ M. split; [|discriminate]. cbn [build]. unfold word_leaf, token_leaf. cbn [norm]. rewrite M. reflexivity.
  - intros c us k r cs ss ts Hk _ Hs _ IH. rewrite (build_node rules c k ss r Hk). destruct (IH _ Hs) as (E & N1 & N2).
    split; [|intros; split; assumption]. rewrite !norm_node by assumption. now rewrite E.
  - intros c us s t _ (IH & _) l Hl. inversion Hl as [|? ? ? ? _ _ Hn]; subst; [|inversion Hn]. cbn [build_all map]. rewrite IH. split; [reflexivity|split; discriminate].
  - intros c cs us1 us2 s ss t ts r _ (IH1 & _) _ _ M R2 IH2 l Hl. inversion Hl as [|c' sp l' cs' Hp Ht Hl']; subst; [inversion R2|].
    destruct (IH2 l' Hl') as (E & _ & _). cbn [build_all map]. rewrite IH1, E. split; [|split; discriminate]. cbn [norm]. unfold word_leaf. rewrite M, Hp. reflexivity.
Qed.

Lemma check_norm t : forall n, check_for_sem (norm t) n = check_for_sem t n.
Proof.
  induction t as [cat ts form r IH] using tree_ind'. intros n. destruct ts as [|t0 ts0]; [reflexivity|]. rewrite norm_node by discriminate. generalize dependent (t0 :: ts0). intros ts IH.
  cbn [check_for_sem]. destruct (_ && _)%bool; [reflexivity|]. unfold bind at 1. symmetry. unfold bind at 1. symmetry. cbn [ret]. revert n.
  induction IH as [|t ts Ht _ IHl]; intros n1; [reflexivity|]. cbn [map]. unfold bind at 1. symmetry. unfold bind at 1. symmetry. rewrite Ht. destruct (check_for_sem t n1) as [[[]| |] n2]; try reflexivity. apply IHl.
Qed.
Lemma compose_norm t : branches t -> forall inc n, compose (norm t) inc n = compose t inc n.
Proof.
  induction t as [cat ts form r IH] using tree_ind'. cbn [branches]. intros Hb inc n. rewrite norm_node by exact Hb. rewrite !compose_eq.
  unfold bind at 1 3. destruct (create_map r inc n) as [[m| |] n1]; try reflexivity. unfold bind at 1 2.
  assert (El : forall cs sems infs exe k, children_loop m (map norm ts) cs sems infs exe k = children_loop m ts cs sems infs exe k).
  { clear Hb n n1. induction IH as [|t ts Ht _ IHl]; intros cs sems infs exe k; [reflexivity|]. destruct cs as [|c cs]; [reflexivity|].
    destruct t as [cat' ts' form' r']. destruct ts' as [|t0 ts0].
    - cbn [map norm children_loop]. fold (children_loop m). cbn [bare new_rule g_mean]. destruct (m_sem (g_mean r')); [|apply IHl].
      unfold bind. destruct (call o [] k) as [[v| |] k1]; try reflexivity. apply IHl.
    - specialize (Ht ltac:(discriminate)). change (map norm (Node cat' (t0 :: ts0) form' r' :: ts)) with (Node cat' (norm t0 :: map norm ts0) form' r' :: map norm ts).
      change (norm (Node cat' (t0 :: ts0) form' r')) with (Node cat' (norm t0 :: map norm ts0) form' r') in Ht.
      cbn [children_loop]. fold (children_loop m). unfold bind at 1 4. destruct (lookup_all m (k_args c) k) as [[vars| |] k1]; try reflexivity.
      unfold bind at 1 3. rewrite Ht. destruct (compose _ vars k1) as [[p| |] k2]; try reflexivity.
      unfold bind at 1 2. destruct (extend exe (snd p) k2) as [[e| |] k3]; try reflexivity. apply IHl. }
  rewrite El. reflexivity.
Qed.
Lemma process_norm opt t : branches t -> forall n, process opt (norm t) n = process opt t n.
Proof.
  intros Hb n. unfold process. unfold bind at 1 5. rewrite check_norm. destruct (check_for_sem t n) as [[[]| |] n1]; try reflexivity.
  destruct t as [cat ts form r]. rewrite norm_node by exact Hb. unfold bind at 1 4. destruct (next_for (k_args (g_ante r)) n1) as [[root| |] n2]; try reflexivity.
  unfold bind at 1 3. rewrite <- norm_node by exact Hb. rewrite (compose_norm (Node cat ts form r) Hb). reflexivity.
Qed.
Lemma reads_process rules c us k ss t : reads rules c us (SNode k ss) t -> forall opt n, process opt t n = process opt (build rules c (SNode k ss)) n.
Proof.
  intros R opt n. destruct (proj1 (reads_built rules) _ _ _ _ R) as (E & H). destruct (H k ss eq_refl) as (H1 & H2).
  now rewrite <- (process_norm opt t H1), <- (process_norm opt _ H2), E.
Qed.
