(** * Reading the sentences of SIR: each text has one meaning *)

From Coq Require Import ZArith String Ascii List Bool Arith Lia.
From Verif Require Import Py Effects Grammar Earley ParserSpec GrammarProofs EarleyProofs Composer ComposerProofs ComposerProofs2
  InferenceModule FragmentModel Regex RegexProofs RegexProofs2 SirModel SirSpec SirProofs.
Import ListNotations.
Local Open Scope nat_scope.
Local Open Scope string_scope.
Local Open Scope list_scope.

(** some letters s *)
Definition is_s (c : ascii) : bool := Ascii.eqb c "s" || Ascii.eqb c "S".

Definition teaches (x y : string) : value := VList [VTuple [VStr "intent_teach"; VList [isa_atom (VStr x) (VStr y)]]].
Definition claims (x y : string) : value := VList [VTuple [VStr "intent_claim"; VList [isa_atom (VStr x) (VStr y)]]].
Definition asks (x y : string) : value := VList [VTuple [VStr "intent_isa"; VStr x; VStr y]].

Section Text.
  Variable text : string.
  Notation deriv := (derives scanned py_match (in_grammar sir_grammar) text).
  Notation deriv_all := (derives_all scanned py_match (in_grammar sir_grammar) text).
  Notation span := (span text).

  Lemma no_more i j ts : deriv_all [] i j ts -> ts = [] /\ i = j.
  Proof. intros D. inversion D; auto. Qed.
  Lemma one_more c cs i k ts : deriv_all (c :: cs) i k ts -> exists j t ts', ts = t :: ts' /\ deriv c i j t /\ deriv_all cs j k ts'.
  Proof. intros D. inversion D; subst. eauto 10. Qed.

  Ltac in_views H := unfold views, view in H; cbn [map app In] in H;
    repeat match type of H with
    | _ \/ _ => destruct H as [H|H]; [first [discriminate H | let E1 := fresh in let E2 := fresh in injection H as E1 E2; clear H]|]
    | False => destruct H
    end.

  Lemma read_a i j t : deriv art i j t -> exists w, article w /\ span i j w /\ piece t [VList []].
  Proof.
    intros D. destruct (derived_rule text "a" i j t D) as (r & ts & cs & m & Hv & -> & Ea & Ec & Em & Da). clear D.
    assert (Hc : (cs = [quoted "a"] \/ cs = [quoted "an"]) /\ m = g_mean (a_rule "a")).
    { unfold views, view in Hv. cbn [map app In] in Hv.
      repeat (destruct Hv as [Hv|Hv]; [first [discriminate Hv | injection Hv as <- <-; split; [auto|reflexivity]]|]). destruct Hv. }
    destruct Hc as (Hc & ->).
    assert (Hw : exists w, cs = [quoted w] /\ (w = "a" \/ w = "an")) by (destruct Hc as [-> | ->]; eauto).
    destruct Hw as (w & E & Hw). rewrite E in *. clear Hc. apply one_more in Da as (k & t & ts' & -> & D & Da). apply no_more in Da as (-> & ->).
    destruct (derived_word text w false i j t) as (v & Hl & Hs & Hp); [destruct Hw as [-> | ->]; discriminate|now left|].
    exists v. split; [unfold article; rewrite Hl; exact Hw|]. split; [exact Hs|].
    apply (composed_phrase "a" [t] [[]] r (no_argument (VList [])) (VList [])); try discriminate.
    - now repeat constructor.
    - now rewrite Ec.
    - now rewrite Ea.
    - rewrite Ec. intros c [<-|[]]. reflexivity.
    - rewrite Em. reflexivity.
    - reflexivity.
    - split; reflexivity.
  Qed.
  Lemma plain_str x : plain (VStr x).
  Proof. split; reflexivity. Qed.

  Lemma read_name i j t : deriv (phrase "name" []) i j t -> exists w, w <> "" /\ every_char name_char w = true /\ span i j w /\ piece t [VStr w].
  Proof.
    intros D. destruct (derived_rule text "name" i j t D) as (r & ts & cs & m & Hv & -> & Ea & Ec & Em & Da). clear D.
    assert (Hc : cs = g_cons name_rule /\ m = g_mean name_rule).
    { unfold views, view in Hv. cbn [map app In] in Hv.
      repeat (destruct Hv as [Hv|Hv]; [first [discriminate Hv | injection Hv as <- <-; split; reflexivity]|]). destruct Hv. }
    destruct Hc as (E & ->). rewrite E in *. apply one_more in Da as (k & t & ts' & -> & D & Da). apply no_more in Da as (-> & ->).
    destruct (derived_token text i j t D) as (v & Nv & Hn & Hs & Hp). exists v. do 3 (split; [assumption|]).
    apply (composed_phrase "name" [t] [[VStr v]] r (fun args => match args with [token] => Ok token | _ => Exn TypeErr end) (VStr v)); try discriminate.
    - now repeat constructor.
    - now rewrite Ec.
    - now rewrite Ea.
    - rewrite Ec. intros c [<-|[]]. reflexivity.
    - rewrite Em. reflexivity.
    - reflexivity.
    - apply plain_str.
  Qed.

  Lemma read_noun t : forall i j, deriv cnn i j t -> exists x p, x <> "" /\ every_char name_char x = true /\ every_char is_s p = true /\
    span i j (append x p) /\ piece t [VStr x].
  Proof.
    induction t as [cat ts form r IH] using ctree_ind. intros i j D.
    destruct (derived_rule text "common_noun_name" i j _ D) as (r' & ts' & cs & m & Hv & [= -> -> -> ->] & Ea & Ec & Em & Da). clear D.
    set (f := fun args : list value => match args with [name] => Ok name | _ => Exn TypeErr end).
    assert (Hc : (cs = [phrase "name" []] \/ cs = [cnn; quoted "s"]) /\ m = mkMeaning (Some f) None (DAtoms [])).
    { unfold views, view in Hv. cbn [map app In] in Hv.
      repeat (destruct Hv as [Hv|Hv]; [first [discriminate Hv | injection Hv as <- <-; split; [auto|reflexivity]]|]). destruct Hv. }
    destruct Hc as ([E|E] & ->); rewrite E in *.
    - apply one_more in Da as (k & t & ts'' & -> & D & Da). apply no_more in Da as (-> & ->).
      destruct (read_name i j t D) as (v & Nv & Hn & Hs & Hp). exists v, "". do 2 (split; [assumption|]). split; [reflexivity|]. rewrite app_nil_s. split; [exact Hs|].
      apply (composed_phrase _ [t] [[VStr v]] r' f (VStr v)); try discriminate.
      + now repeat constructor.
      + now rewrite Ec.
      + now rewrite Ea.
      + rewrite Ec. intros c [<-|[]]. reflexivity.
      + exact Em.
      + reflexivity.
      + apply plain_str.
    - apply one_more in Da as (k & t & ts'' & -> & D & Da). apply one_more in Da as (k2 & t2 & ts2 & -> & D2 & Da). apply no_more in Da as (-> & ->).
      destruct (Forall_inv IH i k D) as (x & p & Nx & Hx & Hp & Hs & Hpi).
      destruct (derived_word text "s" false k j t2) as (v & Hl & Hs2 & Hp2); [discriminate|now left|].
      exists x, (append p v). do 2 (split; [assumption|]). split.
      + rewrite every_app, Hp. apply lower_s in Hl as [-> | ->]; reflexivity.
      + split; [rewrite <- app_assoc_s; now apply span_app with (j := k)|].
        apply (composed_phrase _ [t; t2] [[VStr x]; []] r' f (VStr x)); try discriminate.
        * now repeat constructor.
        * now rewrite Ec.
        * now rewrite Ea.
        * rewrite Ec. intros c [<-|[<-|[]]]; reflexivity.
        * exact Em.
        * reflexivity.
        * apply plain_str.
  Qed.

  (** *** constituents and what stands for them *)
  Definition shows (n x : string) : Prop := exists p, n = append x p /\ every_char name_char x = true /\ every_char is_s p = true.
  Inductive form : constituent -> string -> list value -> Prop :=
  | form_word w o b v : w <> "" -> lower v = w -> form (mkCons w [] PWord o b) v []
  | form_article v : article v -> form art v [VList []]
  | form_noun n x : shows n x -> form cnn n [VStr x].
  Inductive known : constituent -> Prop :=
  | known_word w o b : w <> "" -> known (mkCons w [] PWord o b)
  | known_article : known art
  | known_noun : known cnn.
  Lemma read_form c i j t : known c -> deriv c i j t -> exists v vs, form c v vs /\ span i j v /\ piece t vs.
  Proof.
    intros [w o b Nw| |] D.
    - destruct (derived_word text w b i j t Nw) as (v & Hl & Hs & Hp); [destruct o; auto|]. exists v, []. split; [now constructor|auto].
    - destruct (read_a i j t D) as (w & Ha & Hs & Hp). exists w, [VList []]. split; [now constructor|auto].
    - destruct (read_noun t i j D) as (x & p & Nx & Hx & Hp & Hs & Hpi). exists (append x p), [VStr x]. split; [constructor; exists p; auto|auto].
  Qed.
  Inductive forms : list constituent -> string -> list (list value) -> Prop :=
  | forms_none : forms [] "" []
  | forms_more c cs v w vs vss : form c v vs -> forms cs w vss -> forms (c :: cs) (append v w) (vs :: vss).
  Lemma read_forms cs : Forall known cs -> forall i j ts, deriv_all cs i j ts ->
    exists v vss, forms cs v vss /\ span i j v /\ Forall2 piece ts vss.
  Proof.
    induction 1 as [|c cs Hc F IH]; intros i j ts D.
    - apply no_more in D as (-> & ->). exists "", []. repeat split; constructor.
    - apply one_more in D as (k & t & ts' & -> & D & Da). destruct (read_form c i k t Hc D) as (v & vs & Hf & Hs & Hp).
      destruct (IH k j ts' Da) as (w & vss & Hfs & Hss & Hps). exists (append v w), (vs :: vss). split; [now constructor|]. split; [|now constructor].
      now apply span_app with (j := k).
  Qed.

  Definition statement_rules : list crule := [st_every; st_any; st_a].
  (** constituents and meaning of a sentence *)
  Definition sentence_views : list (list constituent * meaning) :=
    map (fun r => (g_cons r, g_mean r)) statement_rules ++
    [ (g_cons s_is, g_mean s_is);
      ([quoted "is"; space; art; space; cnn; space; art; space; cnn; quoted "?"], g_mean s_is) ].
  Lemma sentence_known cs m : In (cs, m) sentence_views -> Forall known cs /\ cs <> [] /\ (forall c, In c cs -> k_args c = []).
  Proof.
    intros H. cbn [sentence_views map statement_rules app In] in H.
    repeat (destruct H as [H|H]; [injection H as <- <-; split; [repeat (apply Forall_cons; [constructor; discriminate|]); apply Forall_nil|];
      split; [discriminate|]; cbn [g_cons rule_of new_rule st_every st_any st_a s_is In]; intros c Hc;
      repeat (destruct Hc as [<-|Hc]; [reflexivity|]); destruct Hc|]). destruct H.
  Qed.
  Lemma sentence_value cs m v vss : In (cs, m) sentence_views -> forms cs v vss ->
    exists f x y, m = mkMeaning (Some f) None (DAtoms []) /\
      (f (concat vss) = Ok (teaches x y) \/ f (concat vss) = Ok (claims x y) \/ f (concat vss) = Ok (asks x y)).
  Proof.
    intros H F. cbn [sentence_views map statement_rules app In] in H.
    repeat (destruct H as [H|H]; [injection H as <- <-;
      repeat match goal with F : forms _ _ _ |- _ => inversion F; clear F; subst end;
      repeat match goal with F : form _ _ _ |- _ => inversion F; clear F; subst end;
      do 3 eexists; (split; [reflexivity|]);
      first [left; reflexivity|right; left; reflexivity|right; right; reflexivity]|]). destruct H.
  Qed.
  Lemma plain_meaning x y v : v = teaches x y \/ v = claims x y \/ v = asks x y -> plain v.
  Proof. intros [->|[->| ->]]; split; reflexivity. Qed.

  Lemma statement_read i j t : deriv (phrase "statement" []) i j t ->
    exists cs m v vss f x y, In (cs, m) sentence_views /\ forms cs v vss /\ span i j v /\ m = mkMeaning (Some f) None (DAtoms []) /\
      exists sem, f (concat vss) = Ok sem /\ (sem = teaches x y \/ sem = claims x y \/ sem = asks x y) /\ piece t [sem].
  Proof.
    intros D. destruct (derived_rule text "statement" i j t D) as (r & ts & cs & m & Hv & -> & Ea & Ec & Em & Da). clear D.
    assert (Hc : In (cs, m) sentence_views).
    { unfold views, view in Hv. cbn [map app In] in Hv.
      repeat (destruct Hv as [Hv|Hv]; [first [discriminate Hv | injection Hv as <- <-; cbn; auto 10]|]). destruct Hv. }
    destruct (sentence_known cs m Hc) as (K & Ne & A). destruct (read_forms cs K i j ts Da) as (v & vss & Hf & Hs & Hp).
    destruct (sentence_value cs m v vss Hc Hf) as (f & x & y & -> & Hm).
    exists cs, (mkMeaning (Some f) None (DAtoms [])), v, vss, f, x, y. do 4 (split; [assumption || reflexivity|]).
    assert (Hm' : exists sem, f (concat vss) = Ok sem /\ (sem = teaches x y \/ sem = claims x y \/ sem = asks x y)).
    { destruct Hm as [E|[E|E]]; rewrite E; eauto. }
    destruct Hm' as (sem & Hsem & Hc'). exists sem. split; [exact Hsem|]. split; [exact Hc'|].
    assert (L : length cs = length ts) by (clear - Da; induction Da; cbn; auto).
    apply (composed_phrase _ ts vss r f sem); auto.
    - intros ->. destruct cs; [congruence|discriminate].
    - now rewrite Ec.
    - now rewrite Ea.
    - now rewrite Ec.
    - now apply plain_meaning with (x := x) (y := y).
  Qed.
  Lemma sentence_read i j t : deriv (phrase "s" []) i j t ->
    exists cs m v vss f x y, In (cs, m) sentence_views /\ forms cs v vss /\ span i j v /\ m = mkMeaning (Some f) None (DAtoms []) /\
      exists sem, f (concat vss) = Ok sem /\ (sem = teaches x y \/ sem = claims x y \/ sem = asks x y) /\ piece t [sem].
  Proof.
    intros D. destruct (derived_rule text "s" i j t D) as (r & ts & cs & m & Hv & -> & Ea & Ec & Em & Da). clear D.
    assert (Hc : (cs = [phrase "statement" []] /\ m = g_mean s_statement) \/ In (cs, m) sentence_views).
    { unfold views, view in Hv. cbn [map app In] in Hv.
      repeat (destruct Hv as [Hv|Hv]; [first [discriminate Hv | injection Hv as <- <-; cbn; auto 10]|]). destruct Hv. }
    destruct Hc as [(E & ->)|Hc].
    - rewrite E in *. apply one_more in Da as (k & t & ts'' & -> & D & Da). apply no_more in Da as (-> & ->).
      destruct (statement_read i j t D) as (cs' & m & v & vss & f & x & y & H1 & H2 & H3 & H4 & sem & H5 & H6 & H7).
      exists cs', m, v, vss, f, x, y. do 4 (split; [assumption|]). exists sem. do 2 (split; [assumption|]).
      apply (composed_phrase _ [t] [[sem]] r (fun args => match args with [statement] => Ok statement | _ => Exn TypeErr end) sem); auto; try discriminate.
      + now rewrite Ec.
      + now rewrite Ea.
      + rewrite Ec. intros c [<-|[]]. reflexivity.
      + now apply plain_meaning with (x := x) (y := y).
    - destruct (sentence_known cs m Hc) as (K & Ne & A). destruct (read_forms cs K i j ts Da) as (v & vss & Hf & Hs & Hp).
      destruct (sentence_value cs m v vss Hc Hf) as (f & x & y & -> & Hm).
      exists cs, (mkMeaning (Some f) None (DAtoms [])), v, vss, f, x, y. do 4 (split; [assumption || reflexivity|]).
      assert (Hm' : exists sem, f (concat vss) = Ok sem /\ (sem = teaches x y \/ sem = claims x y \/ sem = asks x y)).
      { destruct Hm as [E|[E|E]]; rewrite E; eauto. }
      destruct Hm' as (sem & Hsem & Hc'). exists sem. split; [exact Hsem|]. split; [exact Hc'|].
      assert (L : length cs = length ts) by (clear - Da; induction Da; cbn; auto).
      apply (composed_phrase _ ts vss r f sem); auto.
      + intros ->. destruct cs; [congruence|discriminate].
      + now rewrite Ec.
      + now rewrite Ea.
      + now rewrite Ec.
      + now apply plain_meaning with (x := x) (y := y).
  Qed.
End Text.

(** ** one meaning *)
Definition means (s : sentence) (sem : value) : Prop :=
  match s with
  | Told x y => sem = teaches x y \/ sem = claims x y
  | Asked x y => sem = asks x y
  end.

Lemma word_names v w : lower v = w -> every_char name_char w = true -> every_char name_char v = true.
Proof. intros <-. now rewrite lower_names. Qed.
Lemma article_names v : article v -> every_char name_char v = true.
Proof. intros [H|H]; apply (word_names _ _ H); reflexivity. Qed.
Lemma s_name c : is_s c = true -> name_char c = true.
Proof. unfold is_s. rewrite orb_true_iff, !Ascii.eqb_eq. intros [-> | ->]; reflexivity. Qed.
Lemma noun_names n x : shows n x -> every_char name_char n = true.
Proof. intros (p & -> & Hx & Hp). rewrite every_app, Hx. apply (every_weaken is_s name_char p s_name Hp). Qed.
Lemma ends_in_s p : p <> "" -> every_char is_s p = true -> exists u, p = append u "s" \/ p = append u "S".
Proof.
  induction p as [|c p IH]; [congruence|]. intros _. cbn [every_char]. rewrite andb_true_iff. intros (Hc & Hp). destruct p as [|d p].
  - exists "". unfold is_s in Hc. rewrite orb_true_iff, !Ascii.eqb_eq in Hc. destruct Hc as [-> | ->]; auto.
  - destruct (IH ltac:(discriminate) Hp) as (u & [E|E]); exists (String c u); rewrite E; auto.
Qed.
Lemma noun_alone x y : noun y -> shows y x -> x = y.
Proof.
  intros (_ & Hy) (p & -> & _ & Hp). destruct p as [|c p]; [now rewrite app_nil_s|]. exfalso. destruct (ends_in_s (String c p) ltac:(discriminate) Hp) as (u & [E|E]);
    destruct (Hy (append x u)) as (H1 & H2); rewrite E in *; rewrite app_assoc_s in *; congruence.
Qed.
Lemma space_form v : lower v = " " -> v = " ".
Proof. apply lower_one. auto. Qed.
Lemma mark_form v : lower v = "?" -> v = "?".
Proof. apply lower_one. auto. Qed.

Ltac known_name := first
  [ assumption
  | match goal with H : lower ?v = _ |- every_char _ ?v = true => apply (word_names _ _ H); reflexivity end
  | apply article_names; assumption
  | eapply noun_names; eassumption
  | apply name_chars; match goal with H : noun ?x |- name ?x => exact (proj1 H) end ].
Ltac next_word E :=
  let Ew := fresh "Ew" in
  apply app_same in E as (Ew & E); [|known_name|known_name|cbn; first [reflexivity|exact I]|cbn; first [reflexivity|exact I]].
Ltac differ := exfalso; unfold article in *; repeat match goal with H : _ \/ _ |- _ => destruct H end; congruence.

Lemma unique_meaning s text cs m vss f sem : worded s text -> In (cs, m) sentence_views -> forms cs text vss ->
  m = mkMeaning (Some f) None (DAtoms []) -> f (concat vss) = Ok sem -> means s sem.
Proof.
  intros Hw H F Em Ef. remember text as text' eqn:Et in F. cbn [sentence_views map statement_rules app In] in H.
  repeat (destruct H as [H|H]; [injection H as <- <-;
      repeat match goal with F : forms _ _ _ |- _ => inversion F; clear F; subst end;
      repeat match goal with F : form _ _ _ |- _ => inversion F; clear F; subst end;
      repeat match goal with H : _ <> "" |- _ => clear H end;
      repeat match goal with H : lower _ = " " |- _ => apply space_form in H; subst end;
      repeat match goal with H : lower _ = "?" |- _ => apply mark_form in H; subst end;
      injection Em as <-; cbn in Ef; injection Ef as <-; cbn [append] in Hw|]); [..|destruct H].
  all: inversion Hw as [a x' w b y' Ha Hx Hw' Hb Hy Es Et|e x' w b y' He Hx Hw' Hb Hy Es Et|e x' w n mm o b y' He Hx Hw' Hn Hm Ho Hb Hy Es Et
    |w a x' b y' mark Hw' Ha Hx Hb Hy Hmark Es Et]; clear Hw; subst s.
  all: try (destruct Hmark as [-> | ->]).
  all: cbn [spaced String.concat append] in Et; repeat (rewrite app_assoc_s in Et; cbn [append] in Et); rewrite ?app_nil_s in Et.
  all: next_word Et.
  all: try differ.
  all: cbn [append] in Et; injection Et as Et.
  all: repeat (next_word Et; first [discriminate Et | injection Et as Et | idtac]).
  all: try discriminate.
  all: subst; repeat match goal with H : shows ?y ?x |- _ => apply noun_alone in H; [|assumption] end; subst; cbn; auto.
Qed.

(** ** every sentence has a tree *)
Section Found.
  Variable text : string.
  Notation deriv := (derives scanned py_match (in_grammar sir_grammar) text).
  Notation deriv_all := (derives_all scanned py_match (in_grammar sir_grammar) text).

  Definition derivable (c : constituent) (w rest : string) : Prop :=
    forall i, drop i text = append w rest -> exists t, deriv c i (i + String.length w) t.
  Fixpoint joined (l : list (constituent * string)) : string :=
    match l with [] => "" | (_, w) :: l' => append w (joined l') end.
  Fixpoint all_derivable (l : list (constituent * string)) (rest : string) : Prop :=
    match l with [] => True | (c, w) :: l' => derivable c w (append (joined l') rest) /\ all_derivable l' rest end.

  Lemma derive_all l rest : all_derivable l rest -> forall i, drop i text = append (joined l) rest ->
    exists ts, deriv_all (map fst l) i (i + String.length (joined l)) ts.
  Proof.
    induction l as [|(c & w) l IH]; intros H i E.
    - exists []. cbn. rewrite Nat.add_0_r. constructor.
    - destruct H as (Hc & H). cbn [joined] in *. rewrite app_assoc_s in E. destruct (Hc i E) as (t & Ht).
      destruct (IH H (i + String.length w)) as (ts & Hts).
      + rewrite <- drop_drop, E, drop_app. reflexivity.
      + exists (t :: ts). cbn [map fst]. rewrite len_app, Nat.add_assoc. econstructor; eassumption.
  Qed.
  Lemma derive_rule p cs m l rest : In (phrase p [], cs, m) views -> map fst l = cs -> all_derivable l rest -> derivable (phrase p []) (joined l) rest.
  Proof.
    intros Hv <- Ha i E. destruct (derive_all l rest Ha i E) as (ts & Hts). destruct (view_rule _ Hv) as (r & Hr & Er).
    unfold view in Er. injection Er as E1 E2 _. eexists. apply derives_rule with (r := r).
    - exact Hr.
    - rewrite E1. repeat split.
    - rewrite E2. exact Hts.
  Qed.
  Lemma derive_word w o b v rest : lower v = w -> derivable (mkCons w [] PWord o b) v rest.
  Proof.
    intros Lw i E. eexists. apply (derives_word scanned py_match _ text (mkCons w [] PWord o b) i v (new_rule (mkCons w [] PWord o b) [quoted w] (scanned None) 0)).
    - reflexivity.
    - unfold stands_at. rewrite E. apply take_app.
    - exact Lw.
    - repeat split.
  Qed.
  Ltac in_views := unfold views, view; cbn [map app]; cbn [In]; tauto.

  Lemma derive_article a rest : article a -> derivable art a rest.
  Proof.
    intros [H|H]; rewrite <- (app_nil_s a).
    - apply (derive_rule "a" [quoted "a"] (g_mean (a_rule "a")) [(quoted "a", a)]); [in_views|reflexivity|]. split; [now apply derive_word|exact I].
    - apply (derive_rule "a" [quoted "an"] (g_mean (a_rule "an")) [(quoted "an", a)]); [in_views|reflexivity|]. split; [now apply derive_word|exact I].
  Qed.
  Lemma derive_noun x rest : noun x -> stops rest -> derivable cnn x rest.
  Proof.
    intros (Hx & _) Hr. rewrite <- (app_nil_s x).
    apply (derive_rule "common_noun_name" [phrase "name" []] (g_mean cnn_name) [(phrase "name" [], x)]); [in_views|reflexivity|]. split; [|exact I].
    rewrite <- (app_nil_s x).
    apply (derive_rule "name" (g_cons name_rule) (g_mean name_rule) [(mkCons name_pattern [] PRegExp false false, x)]); [in_views|reflexivity|]. split; [|exact I].
    intros i E. cbn [joined append] in E.
    exists (Node name_pattern [] x (new_rule (mkCons name_pattern [] PRegExp false false) [quoted x] (scanned (Some x)) 0)).
    apply (derives_regexp scanned py_match _ text (mkCons name_pattern [] PRegExp false false) i x x).
    - reflexivity.
    - cbn [k_pred]. rewrite E. now apply name_matched.
    - exists "". now rewrite app_nil_s.
    - destruct Hx as (w & gs & -> & Hl & _). destruct w; [cbn in Hl; lia|discriminate].
    - repeat split.
  Qed.

  Ltac one := split; [first [apply derive_word; first [assumption|reflexivity] | now apply derive_article | apply derive_noun; [assumption|cbn; first [reflexivity|exact I]]]|].
  Lemma sentence_found s : worded s text -> exists t, deriv (phrase "s" []) 0 (String.length text) t.
  Proof.
    intros Hw. assert (H : derivable (phrase "s" []) text ""); [assert (G : forall v, worded s v -> derivable (phrase "s" []) v ""); [clear Hw; intros v Hw|now apply G]|destruct (H 0) as (t & Ht); [cbn; now rewrite app_nil_s|]; now exists t].
    assert (St : forall w, derivable (phrase "statement" []) w "" -> derivable (phrase "s" []) w "").
    { intros w Hst. rewrite <- (app_nil_s w). apply (derive_rule "s" [phrase "statement" []] (g_mean s_statement) [(phrase "statement" [], w)]);
        [in_views|reflexivity|]. split; [exact Hst|exact I]. }
    set (sp := (space, " ") : constituent * string).
    destruct Hw as [a x w b y Ha Hx Hw Hb Hy|e x w b y He Hx Hw Hb Hy|e x w n m o b y He Hx Hw Hn Hm Ho Hb Hy|w a x b y mark Hw Ha Hx Hb Hy [-> | ->]].
    - apply St. replace (spaced [a; x; w; b; y]) with (joined [(art, a); sp; (cnn, x); sp; (quoted "is", w); sp; (art, b); sp; (cnn, y)]);
        [|cbn; now rewrite app_nil_s].
      apply (derive_rule "statement" (g_cons st_a) (g_mean st_a)); [in_views|reflexivity|]. repeat one. exact I.
    - apply St. replace (spaced [e; x; w; b; y]) with (joined [(quoted "every", e); sp; (cnn, x); sp; (quoted "is", w); sp; (art, b); sp; (cnn, y)]);
        [|cbn; now rewrite app_nil_s].
      apply (derive_rule "statement" (g_cons st_every) (g_mean st_every)); [in_views|reflexivity|]. repeat one. exact I.
    - apply St. replace (spaced [e; x; w; n; m; o; b; y]) with (joined [(quoted "any", e); sp; (cnn, x); sp; (quoted "is", w); sp; (quoted "an", n); sp;
        (quoted "example", m); sp; (quoted "of", o); sp; (art, b); sp; (cnn, y)]); [|cbn; now rewrite app_nil_s].
      apply (derive_rule "statement" (g_cons st_any) (g_mean st_any)); [in_views|reflexivity|]. repeat one. exact I.
    - replace (append (spaced [w; a; x; b; y]) "?") with (joined [(quoted "is", w); sp; (art, a); sp; (cnn, x); sp; (art, b); sp; (cnn, y); (quoted "?", "?")]);
        [|cbn; repeat (rewrite app_assoc_s; cbn [append]); reflexivity].
      apply (derive_rule "s" [quoted "is"; space; art; space; cnn; space; art; space; cnn; quoted "?"] (g_mean s_is)); [in_views|reflexivity|]. repeat one. exact I.
    - replace (append (spaced [w; a; x; b; y]) " ?") with
        (joined [(quoted "is", w); sp; (art, a); sp; (cnn, x); sp; (art, b); sp; (cnn, y); (optional_space, " "); (quoted "?", "?")]);
        [|cbn; repeat (rewrite app_assoc_s; cbn [append]); reflexivity].
      apply (derive_rule "s" (g_cons s_is) (g_mean s_is)); [in_views|reflexivity|]. repeat one. exact I.
  Qed.
End Found.
