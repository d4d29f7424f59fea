(** * Sentences: what they are composed to *)

From Coq Require Import ZArith String Ascii List Bool Lia Arith.
From Verif Require Import LexerProofs Py PyFacts Effects EffectsFacts Grammar Earley ParserSpec GrammarProofs EarleyProofs
  EarleyProofs3 EarleyProofs4 EarleyProofs5 EarleyProofs6 ParserFacts Composer ComposerSpec TermProofs
  ComposerProofs ComposerProofs2 ComposerProofs3 ComposerProofs4 ComposerScope PropComposer
  DatalogSpec DatalogProofs FolSpec FolProofs FragmentSpec FragmentModel FragmentProofs PropFol
  QuestionSystem QuestionProofs QuestionProofs2 FragmentProofs2 FragmentProofs3 TalkSpec TalkModel.
Import ListNotations.
Local Open Scope nat_scope.
Local Open Scope string_scope.
Local Open Scope list_scope.

(** ** types that agree on the categories of a rule *)
Section Types.
  Variables T T' : string -> list string -> string -> value -> Prop.

  Lemma phrases_types a cs ws vs :
    (forall c, In c cs -> k_type c <> PWord -> forall xs w v, T (k_pred c) xs w v -> T' (k_pred c) xs w v) ->
    phrases T a cs ws vs -> phrases T' a cs ws vs.
  Proof.
    intros H P. induction P as [|c cs ws vs E P IH|c cs w ws v vs N C P IH].
    - constructor.
    - constructor; auto. apply IH. intros c' Hc. apply H. now right.
    - constructor; auto; [|apply IH; intros c' Hc; apply H; now right].
      unfold child_ok in *. destruct (k_type c) eqn:K; auto; destruct C as (xs & F & M); exists xs; (split; auto);
        (apply H; [now left|congruence|exact M]).
  Qed.
  Lemma scoped_types a cs ws vs :
    (forall c, In c cs -> k_type c <> PWord -> forall xs w v, T (k_pred c) xs w v -> T' (k_pred c) xs w v) ->
    scoped_args T a cs ws vs -> scoped_args T' a cs ws vs.
  Proof. intros H [S1 S2 S3 S4 S5 S6]. constructor; auto. now apply phrases_types. Qed.
End Types.

Lemma well_scoped_types (T T' : string -> list string -> string -> value -> Prop) r :
  (forall c, In c (g_ante r :: g_cons r) -> k_type c <> PWord -> forall xs w v, T (k_pred c) xs w v <-> T' (k_pred c) xs w v) ->
  k_type (g_ante r) <> PWord -> well_scoped T r -> well_scoped T' r.
Proof.
  intros H Ha [W1 W2 (f & Ef & W3) W4 W5].
  assert (B : forall a ws vs, scoped_args T' a (g_cons r) ws vs -> scoped_args T a (g_cons r) ws vs).
  { intros a ws vs. apply scoped_types. intros c Hc Hk xs w v. apply H; auto. now right. }
  constructor; auto.
  - exists f. split; auto. intros a ws vs Hd Hs. destruct (W3 a ws vs Hd (B _ _ _ Hs)) as (s & E & It & Oc & Ty).
    exists s. split; auto. split; auto. split; auto. intros b xs Hb Hsb F. apply H; [now left|exact Ha|]. auto.
  - intros g Eg a ws vs Hd Hs. eapply W4; eauto.
  - intros g Eg a ws vs Hd Hs. eapply W5; eauto.
Qed.

Section Generic.
  Variable T : string -> list string -> string -> value -> Prop.
  Lemma any_end a ws vs : phrases T a [] ws vs -> ws = [] /\ vs = [].
  Proof. intros H. inversion H. auto. Qed.
  Lemma any_word a w o s cs ws vs : phrases T a (mkCons w [] PWord o s :: cs) ws vs ->
    exists ws', ws = w :: ws' /\ phrases T a cs ws' vs.
  Proof.
    intros H. inversion H as [|? ? ws' vs' E P|? ? w' ws' v vs' N C P]; subst; [eauto|]. exfalso. now apply N.
  Qed.
  Lemma any_one a c x cs ws vs : phrases T a (phrase c [x] :: cs) ws vs ->
    exists w ws' v vs' y, ws = w :: ws' /\ vs = v :: vs' /\ a x = Some y /\ T c [y] w v /\ phrases T a cs ws' vs'.
  Proof.
    intros H. inversion H as [|? ? ws' vs' E P|? ? w' ws' v vs' N C P]; subst; [discriminate|].
    destruct C as (xs & F & M). cbn in F. inversion F as [|? y ? l E F']; subst. inversion F'; subst. eauto 11.
  Qed.
  Lemma any_intro ante cons f :
    (forall y, declared (rule_of ante cons f) y -> ~ dollar y) ->
    (forall c, In c (ante :: cons) -> NoDup (k_args c)) ->
    (forall a ws vs, (forall x, declared (rule_of ante cons f) x -> a x <> None) -> scoped_args T a cons ws vs ->
       exists s, f vs = Ok s /\ (forall atoms, s = VList atoms -> Forall iterable atoms) /\
         forall y, occurs y s -> declared (rule_of ante cons f) y \/ exists v, In v vs /\ occurs y v) ->
    (forall b ws vs s xs, (forall y, dollar y -> b y = None) -> scoped_args T b cons ws vs -> f vs = Ok s ->
       Forall2 (fun x y => b x = Some y) (k_args ante) xs -> T (k_pred ante) xs (joined ws) (rename b s)) ->
    well_scoped T (rule_of ante cons f).
  Proof.
    intros Names Nd Ex Ty. constructor; auto; try discriminate.
    exists f. split; [reflexivity|]. intros a ws vs Ha Hs. destruct (Ex a ws vs Ha Hs) as (s & Ef & It & Oc).
    exists s. split; auto. split; auto. split; [intros y Hy; destruct (Oc y Hy); auto|].
    intros b xs Hb Hsb F. apply (Ty b ws vs s xs); auto. intros y Hd. destruct (b y) eqn:E; auto. exfalso.
    assert (N : b y <> None) by congruence. apply Hb in N as [N|(_ & N)]; [eapply Names; eauto|contradiction].
  Qed.
  Lemma any_only b i j cs ws vs x y c1 q1 q2 : scoped_args T b cs ws vs -> i <> j ->
    nth_error (filter spoken cs) i = Some c1 -> nth_error vs i = Some (query_of q1) -> nth_error vs j = Some (query_of q2) ->
    k_args c1 = [x] -> b x = Some y -> only y q1 q2.
  Proof.
    intros Hs Hij Ec E1' E2' Ea Ey z H1 H2. destruct (sa_inner _ _ _ _ _ Hs i j c1 _ _ z Hij Ec E1' E2') as (x' & Hx & Ex).
    - now apply vars_occur.
    - now apply vars_occur.
    - rewrite Ea in Hx. destruct Hx as [<-|[]]. congruence.
  Qed.
End Generic.

(** the query of a noun phrase with what is said of it *)
Definition np_query (o : np) (x : string) (r q : list fol) : list fol :=
  match o with Bare _ => r ++ q | Det d _ => det_fol d x r q end.
Lemma np_query_values o x r q : np_values o x (map fol_value r) (map fol_value q) = map fol_value (np_query o x r q).
Proof. destruct o as [b|d b]; cbn [np_values np_query]; [now rewrite map_app|now rewrite det_fol_values]. Qed.

Section Talk.
  Variable lx : lexicon.
  Hypothesis clean_preds : forall p, lexical lx p -> p <> range_token /\ p <> body_token.

  (** ** what sentences mean *)
  Inductive sentence_means : list string -> sentence -> value -> Prop :=
  | sm_which x b v q1 q2 : nbar_fol x b q1 -> vp_fol x v q2 -> only x q1 q2 ->
      sentence_means [x] (SWhich b v) (intent "intent_list" [VStr x; query_of (q1 ++ q2)])
  | sm_what x b q : nbar_fol x b q -> sentence_means [x] (SWhat b) (intent "intent_list" [VStr x; query_of q])
  | sm_does x o v r q : nbar_fol x (np_nbar o) r -> vp_fol x v q -> only x r q ->
      sentence_means [x] (SDoes o v) (intent "intent_yn" [query_of (np_query o x r q)])
  | sm_is_there x o r : nbar_fol x (np_nbar o) r ->
      sentence_means [x] (SIsThere o) (intent "intent_yn" [query_of (np_query o x r [])])
  | sm_how_many x y b v q1 q2 : nbar_fol y b q1 -> vp_fol y v q2 -> only y q1 q2 -> ~ In x (vars (q1 ++ q2)) ->
      sentence_means [x] (SHowMany b v) (intent "intent_value" [VStr x; query_of [FCount x (q1 ++ q2)]]).

  Definition talks (c : string) (xs : list string) (w : string) (v : value) : Prop :=
    if String.eqb c "s" then exists s, sentence_in lx s /\ w = sentence_text s /\ sentence_means xs s v
    else means lx c xs w v.

  Lemma phrase_talks r : In r (tl (fragment lx)) -> well_scoped talks r.
  Proof.
    intros Hr. assert (Hf : In r (fragment lx)) by (right; exact Hr).
    assert (N : forall c, In c (g_ante r :: g_cons r) -> k_type c <> PWord -> k_pred c <> "s").
    { unfold fragment in Hr. cbn [app tl] in Hr. cbn [In] in Hr.
      assert (Q : forall f n p args, r = rule_of (phrase p args) [quoted n] f -> p <> "s" ->
        forall c, In c (g_ante r :: g_cons r) -> k_type c <> PWord -> k_pred c <> "s").
      { intros f n p args -> Np c [<-|[<-|[]]] K; [exact Np|now elim K]. }
      repeat (destruct Hr as [<-|Hr]; [intros c Hc K; cbn in Hc;
        repeat (destruct Hc as [<-|Hc]; [first [now elim K|discriminate]|]); destruct Hc|]).
      rewrite !in_app_iff, !in_map_iff in Hr.
      destruct Hr as [(w & <- & H)|[(n & <- & H)|[(n & <- & H)|[(n & <- & H)|(n & <- & H)]]]]; (eapply Q; [reflexivity|discriminate]). }
    apply (well_scoped_types (means lx)); [| |now apply fragment_scoped].
    - intros c Hc K xs w v. unfold talks. destruct (String.eqb_spec (k_pred c) "s"); [exfalso; now apply (N c)|reflexivity].
    - unfold fragment in Hf. rewrite !in_app_iff, !in_map_iff in Hf.
      destruct Hf as [H|[(w & <- & H)|[(n & <- & H)|[(n & <- & H)|[(n & <- & H)|(n & <- & H)]]]]]; try discriminate.
      cbn in H. repeat (destruct H as [<-|H]; [discriminate|]). destruct H.
  Qed.

  Ltac names := let y := fresh in let H := fresh in intros y H; apply not_dollar; unfold declared in H; cbn in H;
    repeat match goal with
    | H : _ \/ _ |- _ => destruct H as [H|H]
    | H : exists _, _ |- _ => destruct H as (? & ? & H)
    | H : False |- _ => destruct H
    | H : _ = _ |- _ => subst; cbn in *
    end; auto.
  Ltac nodups := let c := fresh in let H := fresh in intros c H; cbn in H;
    repeat match goal with
    | H : _ \/ _ |- _ => destruct H as [H|H]
    | H : False |- _ => destruct H
    | H : _ = _ |- _ => subst; cbn in *
    end; repeat constructor; cbn; intuition discriminate.
  Ltac word P := apply any_word in P as (? & -> & P).
  Ltac joins := cbn [joined fold_right]; rewrite ?str_app_nil; reflexivity.

  Lemma intent_iterable p l atoms : intent p l = VList atoms -> Forall iterable atoms.
  Proof. apply tuple_iterable. Qed.
  Lemma intent_occurs z p l : occurs z (intent p l) <-> occurs z (VList l).
  Proof. unfold intent. rewrite occurs_cons, occurs_tuple_cons. split; [intros [H|H]; auto; now apply occurs_nil in H|auto]. Qed.
  Lemma reif_occurs z l : occurs z (VList (e1 :: l)) <-> occurs z (VList l).
  Proof. rewrite occurs_cons. split; [intros [H|H]; auto; inversion H|auto]. Qed.
  Lemma one_occurs z v : occurs z (VList [v]) <-> occurs z v.
  Proof. rewrite occurs_cons. split; [intros [H|H]; auto; now apply occurs_nil in H|auto]. Qed.
  Lemma root_name (b : string -> option string) (x : string) (xs : list string) y : Forall2 (fun x y => b x = Some y) [x] xs -> b x = Some y -> xs = [y].
  Proof. apply two_names. Qed.

  Lemma rename_intent1 b p q : rename b (intent p [q]) = intent p [rename b q].
  Proof. reflexivity. Qed.
  Lemma rename_intent2 b p y q : b "E1" = Some y -> rename b (intent p [e1; q]) = intent p [VStr y; rename b q].
  Proof. intros E. unfold intent. cbn. now rewrite E. Qed.
  Lemma rename_count b y q : b "E1" = Some y -> rename b (VList [VTuple [VStr "count"; E1; q]]) = VList [VTuple [VStr "count"; VVar y; rename b q]].
  Proof. intros E. cbn. now rewrite E. Qed.

  Lemma nbar_clean x b q : nbar_fol x b q -> nbar_in lx b -> clean_query q.
  Proof. apply (proj1 (fragment_clean lx clean_preds)). Qed.
  Lemma vp_clean x b q : vp_fol x b q -> vp_in lx b -> clean_query q.
  Proof. apply (proj1 (proj2 (proj2 (fragment_clean lx clean_preds)))). Qed.

  Lemma scoped_which : well_scoped talks s_which_q.
  Proof.
    assert (Inv : forall a ws vs, phrases talks a (g_cons s_which_q) ws vs -> exists y b v q1 q2,
      a "E1" = Some y /\ nbar_in lx b /\ vp_in lx v /\ nbar_fol y b q1 /\ vp_fol y v q2 /\
      joined ws = sentence_text (SWhich b v) /\ vs = [query_of q1; query_of q2]).
    { intros a ws vs P. cbn in P. do 2 word P.
      apply any_one in P as (w & ws' & v & vs' & y & -> & -> & Ey & M & P). word P.
      apply any_one in P as (w2 & ws2 & v2 & vs2 & y2 & -> & -> & Ey2 & M2 & P). word P.
      apply any_end in P as (-> & ->). assert (y2 = y) by congruence; subst y2.
      apply means_nbar in M as (b & q & Hb & Hq & -> & ->). apply means_vp in M2 as (r & q2 & Hr & Hq2 & -> & ->).
      exists y, b, r, q, q2. repeat (split; [assumption|]). split; [joins|reflexivity]. }
    apply any_intro; [names|nodups| |].
    - intros a ws vs _ [_ _ P _ _ _]. destruct (Inv _ _ _ P) as (y & b & r & q1 & q2 & Ey & Hb & Hr & H1 & H2 & _ & ->).
      rewrite concatenate_app. eexists. split; [reflexivity|]. split; [apply intent_iterable|].
      intros z Hz. right. apply concat_children. rewrite query_app. now rewrite intent_occurs, reif_occurs, one_occurs in Hz.
    - intros b0 ws vs s xs Hb0 Hs E F. destruct (Inv _ _ _ (sa_typed _ _ _ _ _ Hs)) as (y & b & r & q1 & q2 & Ey & Hb & Hr & H1 & H2 & -> & ->).
      cbn [k_args phrase] in F. rewrite (root_name _ _ _ _ F Ey). rewrite concatenate_app in E. injection E as <-.
      assert (On : only y q1 q2) by (eapply (any_only talks b0 0 1); [exact Hs|lia| | | | | ]; try reflexivity; exact Ey).
      exists (SWhich b r). split; [split; auto|]. split; [reflexivity|].
      rewrite (rename_intent2 _ _ _ _ Ey), rename_query; auto.
      + now constructor.
      + apply clean_app. split; [eapply nbar_clean; eauto|eapply vp_clean; eauto].
      + apply dollar_app. apply (sa_names _ _ _ _ _ Hs).
  Qed.
  Lemma scoped_what : well_scoped talks s_what.
  Proof.
    assert (Inv : forall a ws vs, phrases talks a (g_cons s_what) ws vs -> exists y b q,
      a "E1" = Some y /\ nbar_in lx b /\ nbar_fol y b q /\ joined ws = sentence_text (SWhat b) /\ vs = [query_of q]).
    { intros a ws vs P. cbn in P. do 2 word P.
      apply any_one in P as (w & ws' & v & vs' & y & -> & -> & Ey & M & P). do 5 word P.
      apply any_end in P as (-> & ->).
      apply means_nbar in M as (b & q & Hb & Hq & -> & ->).
      exists y, b, q. repeat (split; [assumption|]). split; [joins|reflexivity]. }
    apply any_intro; [names|nodups| |].
    - intros a ws vs _ [_ _ P _ _ _]. destruct (Inv _ _ _ P) as (y & b & q & Ey & Hb & H1 & _ & ->).
      eexists. split; [reflexivity|]. split; [apply intent_iterable|].
      intros z Hz. right. exists (query_of q). split; [now left|]. now rewrite intent_occurs, reif_occurs, one_occurs in Hz.
    - intros b0 ws vs s xs Hb0 Hs E F. destruct (Inv _ _ _ (sa_typed _ _ _ _ _ Hs)) as (y & b & q & Ey & Hb & H1 & -> & ->).
      cbn [k_args phrase] in F. rewrite (root_name _ _ _ _ F Ey). injection E as <-.
      exists (SWhat b). split; [auto|]. split; [reflexivity|].
      rewrite (rename_intent2 _ _ _ _ Ey), rename_query; auto.
      + now constructor.
      + eapply nbar_clean; eauto.
      + intros z. apply (sa_names _ _ _ _ _ Hs). now left.
  Qed.

  (** noun phrases applied *)
  Lemma subject_apply o y r q : np_in lx o -> nbar_fol y (np_nbar o) r ->
    apply (VTmpl [Body] (np_values o y (map fol_value r) [VStr body_token])) [query_of q] = Ok (query_of (np_query o y r q)).
  Proof.
    intros Ho Hr. unfold query_of. rewrite np_apply.
    - rewrite <- np_query_values. reflexivity.
    - eapply nbar_clean; [exact Hr|]. now apply np_in_nbar.
  Qed.
  Lemma subject_occurs z o y r q : nbar_fol y (np_nbar o) r -> occurs z (query_of (np_query o y r q)) ->
    occurs z (query_of q) \/ occurs z (VTmpl [Body] (np_values o y (map fol_value r) [VStr body_token])).
  Proof.
    intros Hr H. unfold query_of in H. rewrite <- np_query_values in H. apply np_occurs in H as [->|[H|H]]; auto.
    - right. apply occurs_tmpl, np_occurs_range. apply (vars_occur r), (nbar_var _ _ _ Hr).
    - right. now apply occurs_tmpl, np_occurs_range.
  Qed.
  Lemma subject_clean o y r q : clean_query r -> clean_query q -> clean_query (np_query o y r q).
  Proof.
    unfold clean_query. intros Hr Hq. rewrite <- np_query_values. destruct o as [b|d b]; cbn [np_values]; [rewrite forallb_app, Hr; exact Hq|].
    destruct d; cbn [det_values forallb clean]; rewrite ?forallb_app, ?Hr, ?Hq; reflexivity.
  Qed.

  Lemma scoped_does : well_scoped talks s_does.
  Proof.
    assert (Inv : forall a ws vs, phrases talks a (g_cons s_does) ws vs -> exists y o v r q,
      a "E1" = Some y /\ np_in lx o /\ vp_in lx v /\ nbar_fol y (np_nbar o) r /\ vp_fol y v q /\
      joined ws = sentence_text (SDoes o v) /\
      vs = [VTmpl [Body] (np_values o y (map fol_value r) [VStr body_token]); query_of q]).
    { intros a ws vs P. cbn in P. do 2 word P.
      apply any_one in P as (w & ws' & v & vs' & y & -> & -> & Ey & M & P). word P.
      apply any_one in P as (w2 & ws2 & v2 & vs2 & y2 & -> & -> & Ey2 & M2 & P). word P.
      apply any_end in P as (-> & ->). assert (y2 = y) by congruence; subst y2.
      apply means_np in M as (o & r & Ho & Hr & -> & ->). apply means_vp in M2 as (v & q & Hv & Hq & -> & ->).
      exists y, o, v, r, q. repeat (split; [assumption|]). split; [joins|reflexivity]. }
    apply any_intro; [names|nodups| |].
    - intros a ws vs _ [_ _ P _ _ _]. destruct (Inv _ _ _ P) as (y & o & v & r & q & Ey & Ho & Hv & Hr & Hq & _ & ->).
      rewrite subject_apply by assumption. eexists. split; [reflexivity|]. split; [apply intent_iterable|].
      intros z Hz. right. rewrite intent_occurs, one_occurs in Hz.
      apply subject_occurs in Hz as [Hz|Hz]; auto; eexists; (split; [|exact Hz]); cbn; auto.
    - intros b0 ws vs s xs Hb0 Hs E F. destruct (Inv _ _ _ (sa_typed _ _ _ _ _ Hs)) as (y & o & v & r & q & Ey & Ho & Hv & Hr & Hq & -> & ->).
      cbn [k_args phrase] in F. rewrite (root_name _ _ _ _ F Ey). rewrite subject_apply in E by assumption. injection E as <-.
      assert (On : only y r q).
      { intros z H1 H2. destruct (sa_inner _ _ _ _ _ Hs 0 1 (phrase "np" ["E1"]) _ _ z ltac:(lia) eq_refl eq_refl eq_refl) as (x' & Hx & Ex).
        - apply occurs_tmpl, np_occurs_range. now apply (vars_occur r).
        - now apply vars_occur.
        - destruct Hx as [<-|[]]. congruence. }
      exists (SDoes o v). split; [split; auto|]. split; [reflexivity|].
      rewrite rename_intent1, rename_query; auto.
      + now constructor.
      + apply subject_clean; [eapply nbar_clean; [exact Hr|now apply np_in_nbar]|eapply vp_clean; eauto].
      + intros z Hz. apply subject_occurs in Hz as [Hz|Hz]; auto; apply (sa_names _ _ _ _ _ Hs) in Hz; cbn; auto.
  Qed.
  Lemma scoped_is_there : well_scoped talks s_is_there.
  Proof.
    assert (Inv : forall a ws vs, phrases talks a (g_cons s_is_there) ws vs -> exists y o r,
      a "E1" = Some y /\ np_in lx o /\ nbar_fol y (np_nbar o) r /\
      joined ws = sentence_text (SIsThere o) /\
      vs = [VTmpl [Body] (np_values o y (map fol_value r) [VStr body_token])]).
    { intros a ws vs P. cbn in P. do 4 word P.
      apply any_one in P as (w & ws' & v & vs' & y & -> & -> & Ey & M & P). word P.
      apply any_end in P as (-> & ->).
      apply means_np in M as (o & r & Ho & Hr & -> & ->).
      exists y, o, r. repeat (split; [assumption|]). split; [joins|reflexivity]. }
    assert (Ap : forall o y r, np_in lx o -> nbar_fol y (np_nbar o) r ->
      apply (VTmpl [Body] (np_values o y (map fol_value r) [VStr body_token])) [VList []] = Ok (query_of (np_query o y r []))).
    { intros o y r Ho Hr. apply (subject_apply o y r []); auto. }
    apply any_intro; [names|nodups| |].
    - intros a ws vs _ [_ _ P _ _ _]. destruct (Inv _ _ _ P) as (y & o & r & Ey & Ho & Hr & _ & ->).
      rewrite Ap by assumption. eexists. split; [reflexivity|]. split; [apply intent_iterable|].
      intros z Hz. right. rewrite intent_occurs, one_occurs in Hz.
      apply subject_occurs in Hz as [Hz|Hz]; auto; [now apply occurs_nil in Hz|]. eexists. (split; [|exact Hz]). cbn. auto.
    - intros b0 ws vs s xs Hb0 Hs E F. destruct (Inv _ _ _ (sa_typed _ _ _ _ _ Hs)) as (y & o & r & Ey & Ho & Hr & -> & ->).
      cbn [k_args phrase] in F. rewrite (root_name _ _ _ _ F Ey). rewrite Ap in E by assumption. injection E as <-.
      exists (SIsThere o). split; [auto|]. split; [reflexivity|].
      rewrite rename_intent1, rename_query; auto.
      + now constructor.
      + apply subject_clean; [eapply nbar_clean; [exact Hr|now apply np_in_nbar]|reflexivity].
      + intros z Hz. apply subject_occurs in Hz as [Hz|Hz]; auto; [now apply occurs_nil in Hz|]. apply (sa_names _ _ _ _ _ Hs) in Hz; cbn; auto.
  Qed.
  Lemma scoped_how_many : well_scoped talks s_how_many.
  Proof.
    assert (Inv : forall a ws vs, phrases talks a (g_cons s_how_many) ws vs -> exists y b v q1 q2,
      a "E2" = Some y /\ nbar_in lx b /\ vp_in lx v /\ nbar_fol y b q1 /\ vp_fol y v q2 /\
      joined ws = sentence_text (SHowMany b v) /\ vs = [query_of q1; query_of q2]).
    { intros a ws vs P. cbn in P. do 4 word P.
      apply any_one in P as (w & ws' & v & vs' & y & -> & -> & Ey & M & P). word P.
      apply any_one in P as (w2 & ws2 & v2 & vs2 & y2 & -> & -> & Ey2 & M2 & P). word P.
      apply any_end in P as (-> & ->). assert (y2 = y) by congruence; subst y2.
      apply means_nbar in M as (b & q & Hb & Hq & -> & ->). apply means_vp in M2 as (r & q2 & Hr & Hq2 & -> & ->).
      exists y, b, r, q, q2. repeat (split; [assumption|]). split; [joins|reflexivity]. }
    apply any_intro; [names|nodups| |].
    - intros a ws vs _ [_ _ P _ _ _]. destruct (Inv _ _ _ P) as (y & b & r & q1 & q2 & Ey & Hb & Hr & H1 & H2 & _ & ->).
      rewrite concatenate_app. eexists. split; [reflexivity|]. split; [apply intent_iterable|].
      intros z Hz. rewrite intent_occurs, reif_occurs, one_occurs in Hz.
      rewrite one_occurs, occurs_tuple_cons, occurs_cons, one_occurs in Hz. unfold E1 in Hz. rewrite occurs_one in Hz.
      destruct Hz as [->|Hz]; [left; left; now left|right]. apply concat_children. now rewrite query_app.
    - intros b0 ws vs s xs Hb0 Hs E F. destruct (Inv _ _ _ (sa_typed _ _ _ _ _ Hs)) as (y & b & r & q1 & q2 & Ey & Hb & Hr & H1 & H2 & -> & ->).
      cbn [k_args phrase] in F. inversion F as [|? x ? l Ex F']; subst. inversion F'; subst. clear F'.
      rewrite concatenate_app in E. injection E as <-.
      assert (On : only y q1 q2) by (eapply (any_only talks b0 0 1); [exact Hs|lia| | | | | ]; try reflexivity; exact Ey).
      assert (Nx : ~ In x (vars (q1 ++ q2))).
      { rewrite vars_app, in_app_iff. intros [Hx|Hx].
        - assert (In "E1" ["E2"]) as [E|[]]; [|discriminate E].
          apply (sa_outer _ _ _ _ _ Hs 0 (phrase "nbar" ["E2"]) _ "E1" x eq_refl eq_refl); [now apply vars_occur|exact Ex].
        - assert (In "E1" ["E2"]) as [E|[]]; [|discriminate E].
          apply (sa_outer _ _ _ _ _ Hs 1 (phrase "vp" ["E2"]) _ "E1" x eq_refl eq_refl); [now apply vars_occur|exact Ex]. }
      exists (SHowMany b r). split; [split; auto|]. split; [reflexivity|].
      rewrite (rename_intent2 _ _ _ _ Ex), (rename_count _ _ _ Ex), rename_query; auto.
      + now apply (sm_how_many x y).
      + apply clean_app. split; [eapply nbar_clean; eauto|eapply vp_clean; eauto].
      + apply dollar_app. apply (sa_names _ _ _ _ _ Hs).
  Qed.

  Theorem talk_scoped r : In r (talk lx) -> well_scoped talks r.
  Proof.
    unfold talk. rewrite in_app_iff. intros [H|H]; [|now apply phrase_talks].
    cbn in H. repeat destruct H as [<-|H]; [..|destruct H].
    - apply scoped_which.
    - apply scoped_what.
    - apply scoped_does.
    - apply scoped_is_there.
    - apply scoped_how_many.
  Qed.

  (** ** the grammar *)
  Hypothesis Hw : good_words lx.

  Lemma talk_shape r : In r (talk lx) -> shape r /\ unit_ok r.
  Proof.
    unfold talk. rewrite in_app_iff. intros [H|H]; [|apply (fragment_shape lx Hw); now right].
    cbn in H. repeat (destruct H as [<-|H]; [split;
        [constructor; [eexists _, _; split; [reflexivity|split; discriminate]|discriminate| |eexists; reflexivity];
         cbn; repeat (constructor; [first [now constructor|constructor; [split; discriminate|repeat constructor; cbn; auto]]|]); constructor
        |intros c Hc Ht; cbn in Hc; discriminate Hc]|]). destruct H.
  Qed.

  Theorem sentence_derives re_match text s : sentence_in lx s -> sentence_text s = lower text ->
    exists t, derives scanned re_match (in_grammar (talk lx)) text (phrase "s" ["E1"]) 0 (String.length text) t.
  Proof.
    intros Hs E.
    assert (HG : forall r, In r (tl (fragment lx)) -> In r (talk lx)) by (intros r Hr; unfold talk; apply in_or_app; now right).
    assert (Wd : forall w b, lower w = w -> derivable (talk lx) re_match text (mkCons w [] PWord false b) w) by (intros; now apply derivable_word).
    destruct (phrase_derivable lx Hw (talk lx) HG re_match text) as (Db & _ & Dv & Do).
    destruct s as [b v|b|o v|o|b v]; cbn [sentence_in] in Hs.
    - destruct Hs as (Hb & Hv).
      apply (sentence_derivable (talk lx) re_match text s_which_q ["which"; " "; nbar_text b; " "; vp_text v; "?"] (sentence_text (SWhich b v)));
        [now left|repeat split| |joins|exact E]. repeat constructor; try (now apply Wd); auto.
    - apply (sentence_derivable (talk lx) re_match text s_what ["what"; " "; nbar_text b; " "; "are"; " "; "there"; "?"] (sentence_text (SWhat b)));
        [right; now left|repeat split| |joins|exact E]. repeat constructor; try (now apply Wd); auto.
    - destruct Hs as (Ho & Hv).
      apply (sentence_derivable (talk lx) re_match text s_does ["does"; " "; np_text o; " "; vp_text v; "?"] (sentence_text (SDoes o v)));
        [do 2 right; now left|repeat split| |joins|exact E]. repeat constructor; try (now apply Wd); auto.
    - apply (sentence_derivable (talk lx) re_match text s_is_there ["is"; " "; "there"; " "; np_text o; "?"] (sentence_text (SIsThere o)));
        [do 3 right; now left|repeat split| |joins|exact E]. repeat constructor; try (now apply Wd); auto.
    - destruct Hs as (Hb & Hv).
      apply (sentence_derivable (talk lx) re_match text s_how_many ["how"; " "; "many"; " "; nbar_text b; " "; vp_text v; "?"] (sentence_text (SHowMany b v)));
        [do 4 right; now left|repeat split| |joins|exact E]. repeat constructor; try (now apply Wd); auto.
  Qed.
  Lemma sentence_lower s : sentence_in lx s -> lower (sentence_text s) = sentence_text s.
  Proof.
    destruct (phrase_lower lx Hw) as (Ln & _ & Lv & Lo).
    destruct s as [b v|b|o v|o|b v]; cbn [sentence_in sentence_text].
    - intros (Hb & Hv). rewrite !lower_append, (Ln b Hb), (Lv v Hv). reflexivity.
    - intros Hb. rewrite !lower_append, (Ln b Hb). reflexivity.
    - intros (Ho & Hv). rewrite !lower_append, (Lo o Ho), (Lv v Hv). reflexivity.
    - intros Ho. rewrite !lower_append, (Lo o Ho). reflexivity.
    - intros (Hb & Hv). rewrite !lower_append, (Ln b Hb), (Lv v Hv). reflexivity.
  Qed.
End Talk.
