(** * The fragment of English: what its phrases are composed to *)

From Coq Require Import ZArith String Ascii List Bool Lia Arith.
From Verif Require Import LexerProofs.
From Verif Require Import Py PyFacts Effects EffectsFacts Grammar Earley ParserSpec Composer ComposerSpec TermProofs
  ComposerProofs ComposerProofs2 ComposerProofs3 ComposerProofs4 ComposerScope PropComposer
  DatalogSpec DatalogProofs FolSpec FolProofs FragmentSpec FragmentModel FragmentProofs PropFol.
Import ListNotations.
Local Open Scope string_scope.
Local Open Scope list_scope.

(** ** templates *)

Definition det_values (d : det) (x : string) (range body : list value) : list value :=
  match d with
  | Some_ _ => range ++ body
  | No => [VTuple [VStr "none"; VList (range ++ body)]]
  | Every => [VTuple [VStr "all"; VVar x; VList range; VList body]]
  | Number _ k => [VTuple [VStr "det_equals"; VList (range ++ body); VInt k]]
  | MoreThan _ k => [VTuple [VStr "det_greater_than"; VList (range ++ body); VInt k]]
  end.
Lemma det_fol_values d x r q : map fol_value (det_fol d x r q) = det_values d x (map fol_value r) (map fol_value q).
Proof. destruct d; cbn [det_fol det_values]; rewrite ?map_app; cbn [map fol_value]; rewrite ?map_app; reflexivity. Qed.

Definition np_values (o : np) (x : string) (range body : list value) : list value :=
  match o with Bare _ => range ++ body | Det d _ => det_values d x range body end.
Definition np_nbar (o : np) : nbar := match o with Bare b | Det _ b => b end.

(** no template, no reified variable and no token in it *)
Fixpoint clean (v : value) : bool :=
  match v with
  | VStr s => negb (String.eqb s range_token || String.eqb s body_token)
  | VReif _ | VTmpl _ _ => false
  | VTuple l | VList l => forallb clean l
  | _ => true
  end.
Lemma clean_token v t : clean v = true -> token_in t v -> t <> range_token /\ t <> body_token.
Proof.
  intros C H. induction H as [|v l Hv H IH|v l Hv H IH].
  - cbn in C. apply negb_true_iff, orb_false_iff in C as (C1 & C2). split; intros ->; rewrite String.eqb_refl in *; discriminate.
  - cbn in C. rewrite forallb_forall in C. auto.
  - cbn in C. rewrite forallb_forall in C. auto.
Qed.
Lemma clean_tokens l t v : forallb clean l = true -> In v l -> token_in t v -> t <> range_token /\ t <> body_token.
Proof. rewrite forallb_forall. intros C Hv. apply clean_token. auto. Qed.
Lemma splice_clean a l : forallb clean l = true -> (forall t, t <> range_token -> t <> body_token -> a t = None) -> flat_map (splice a) l = l.
Proof.
  intros C Ha. apply flat_map_id. intros v Hv. apply splice_none. intros t Ht.
  destruct (clean_tokens l t v C Hv Ht). auto.
Qed.

Lemma det_apply d x R : forallb clean R = true ->
  apply (template2 (det_values d x [VStr range_token] [VStr body_token])) [VList R; Body] =
  Ok (VList (det_values d x R [VStr body_token])).
Proof.
  intros C. unfold template2, Body. change [VList R; VList [VStr body_token]] with (map VList [R; [VStr body_token]]).
  rewrite (C83_values_are_spliced_in _ _ [range_token; body_token]).
  - destruct d; cbn [det_values]; vm_compute stands_for; cbn; rewrite ?app_nil_r; reflexivity.
  - repeat constructor.
  - cbn. lia.
  - intros i j vi t Hij Hj Ei Et w Hw. cbn in Hj. assert (i = 0) as -> by lia. assert (j = 1) as -> by lia.
    injection Ei as <-. injection Et as <-. intros T. destruct (clean_tokens _ _ _ C Hw T). congruence.
Qed.

Lemma np_apply o x R q : forallb clean R = true ->
  apply (VTmpl [Body] (np_values o x R [VStr body_token])) [VList q] = Ok (VList (np_values o x R q)).
Proof.
  intros C. unfold Body. change [VList q] with (map VList [q]).
  rewrite (C83_values_are_spliced_in _ _ [body_token]).
  - assert (Ha : forall t, t <> range_token -> t <> body_token -> stands_for [body_token] [q] t = None).
    { intros t _ N. cbn [stands_for]. destruct (String.eqb_spec t body_token); [contradiction|reflexivity]. }
    pose proof (splice_clean _ _ C Ha) as E.
    destruct o as [b|d b]; cbn [np_values]; [|destruct d; cbn [det_values]];
      cbn [flat_map splice]; rewrite ?flat_map_app, ?E; vm_compute stands_for; cbn; rewrite ?app_nil_r; reflexivity.
  - repeat constructor.
  - cbn. lia.
  - intros i j vi t Hij Hj. cbn in Hj. lia.
Qed.

(** ** values of queries *)

Lemma forallb_app {A} (f : A -> bool) l m : forallb f (l ++ m) = (forallb f l && forallb f m)%bool.
Proof. apply List.forallb_app. Qed.

Lemma rename_clean b v : clean v = true -> (forall y, occurs y v -> b y = None) -> rename b v = v.
Proof.
  induction v using value_ind'; intros C O; cbn in C |- *; try discriminate; try reflexivity.
  - match goal with |- context [b ?x] => now rewrite (O x (occurs_var x)) end.
  - f_equal. rewrite forallb_forall in C. rewrite Forall_forall in H. transitivity (map (fun v : value => v) l); [|apply map_id].
    apply map_ext_in. intros v Hv. apply H; auto. intros y Hy. apply O. now apply occurs_tuple with v.
  - f_equal. rewrite forallb_forall in C. rewrite Forall_forall in H. transitivity (map (fun v : value => v) l); [|apply map_id].
    apply map_ext_in. intros v Hv. apply H; auto. intros y Hy. apply O. now apply occurs_list with v.
Qed.

Lemma occurs_app z l m : occurs z (VList (l ++ m)) <-> occurs z (VList l) \/ occurs z (VList m).
Proof.
  split.
  - intros H. inversion H as [| |v ? Hv Hz|]; subst. apply in_app_or in Hv as [Hv|Hv]; [left|right]; now apply occurs_list with v.
  - intros [H|H]; inversion H as [| |v ? Hv Hz|]; subst; apply occurs_list with v; auto; apply in_or_app; auto.
Qed.
Lemma occurs_cons z v m : occurs z (VList (v :: m)) <-> occurs z v \/ occurs z (VList m).
Proof.
  rewrite (occurs_app z [v] m). split; (intros [H|H]; [left|now right]).
  - inversion H as [| |v0 ? Hv Hz|]; subst. destruct Hv as [<-|[]]. exact Hz.
  - apply occurs_list with v; [now left|exact H].
Qed.
Lemma occurs_tmpl z a l : occurs z (VTmpl a l) <-> occurs z (VList l).
Proof.
  split; intros H.
  - inversion H as [| | |v ? ? Hv Hz]; subst. now apply occurs_list with v.
  - inversion H as [| |v ? Hv Hz|]; subst. now apply occurs_body with v.
Qed.
Lemma occurs_tuple_cons z p l : occurs z (VTuple (VStr p :: l)) <-> occurs z (VList l).
Proof.
  split; intros H.
  - inversion H as [|v ? Hv Hz| |]; subst. destruct Hv as [<-|Hv]; [inversion Hz|]. now apply occurs_list with v.
  - inversion H as [| |v ? Hv Hz|]; subst. apply occurs_tuple with v; auto. now right.
Qed.
Lemma occurs_nil z : ~ occurs z (VList []).
Proof. intros H. inversion H as [| |v ? Hv Hz|]. destruct Hv. Qed.
Lemma occurs_one z y : occurs z (VVar y) <-> z = y.
Proof. split; [intros H; now inversion H|intros ->; constructor]. Qed.
Lemma occurs_int z k : ~ occurs z (VInt k).
Proof. intros H. inversion H. Qed.
Lemma occurs_str z k : ~ occurs z (VStr k).
Proof. intros H. inversion H. Qed.

(** a variable of a query occurs in its value *)
Lemma fol_vars_occur f : forall z, In z (fol_vars f) -> occurs z (fol_value f).
Proof.
  assert (A : forall z l, In z (arg_vars l) -> occurs z (VList l)).
  { intros z l H. apply in_arg_vars in H. apply occurs_list with (VVar z); [exact H|constructor]. }
  assert (Q : forall q, Forall (fun f => forall z, In z (fol_vars f) -> occurs z (fol_value f)) q ->
    forall z, In z (flat_map fol_vars q) -> occurs z (VList (map fol_value q))).
  { intros q F z H. apply in_flat_map in H as (f0 & Hf & Hz). rewrite Forall_forall in F.
    apply occurs_list with (fol_value f0); [now apply in_map|auto]. }
  induction f as [a|t u|l t u|n q IH|q IH|alts IH|x range body IHr IHb|x q IH|c k q IH] using fol_ind'; intros z Hz; cbn [fol_value fol_vars] in *.
  - unfold atom_value. apply occurs_tuple_cons. auto.
  - apply occurs_tuple_cons. auto.
  - apply occurs_tuple_cons. auto.
  - apply occurs_tuple_cons, occurs_cons. left. auto.
  - apply occurs_tuple_cons, occurs_cons. left. auto.
  - apply occurs_tuple_cons, occurs_cons. left. apply in_flat_map in Hz as (q & Hq & Hz). rewrite Forall_forall in IH.
    apply occurs_list with (VList (map fol_value q)); [apply in_map_iff; eauto|]. apply Q; auto.
  - apply occurs_tuple_cons. destruct Hz as [<-|Hz]; [apply occurs_cons; left; constructor|].
    apply occurs_cons. right. apply in_app_or in Hz as [Hz|Hz].
    + apply occurs_cons. left. auto.
    + apply occurs_cons. right. apply occurs_cons. left. auto.
  - apply occurs_tuple_cons. destruct Hz as [<-|Hz]; [apply occurs_cons; left; constructor|].
    apply occurs_cons. right. apply occurs_cons. left. auto.
  - apply occurs_tuple_cons, occurs_cons. left. auto.
Qed.
Lemma vars_occur q z : In z (vars q) -> occurs z (query_of q).
Proof.
  intros H. apply in_flat_map in H as (f & Hf & Hz). apply occurs_list with (fol_value f); [now apply in_map|now apply fol_vars_occur].
Qed.

Lemma det_occurs z d x R q : occurs z (VList (det_values d x R q)) -> z = x \/ occurs z (VList R) \/ occurs z (VList q).
Proof.
  destruct d; cbn [det_values]; rewrite ?occurs_cons, ?occurs_tuple_cons, ?occurs_cons, ?occurs_app, ?occurs_one;
    intros H; repeat (destruct H as [H|H]); auto; exfalso; revert H; rewrite ?occurs_cons; intros H; repeat (destruct H as [H|H]);
    try apply occurs_nil in H; try apply occurs_int in H; tauto.
Qed.
Lemma np_occurs z o x R q : occurs z (VList (np_values o x R q)) -> z = x \/ occurs z (VList R) \/ occurs z (VList q).
Proof. destruct o; cbn [np_values]; [rewrite occurs_app; tauto|apply det_occurs]. Qed.
Lemma np_occurs_range z o x R q : occurs z (VList R) -> occurs z (VList (np_values o x R q)).
Proof.
  intros H. destruct o as [b|d b]; cbn [np_values]; [apply occurs_app; auto|].
  destruct d; cbn [det_values]; rewrite ?occurs_cons, ?occurs_tuple_cons, ?occurs_cons, ?occurs_app; auto 6.
Qed.

Section Fragment.
  Variable lx : lexicon.
  Hypothesis clean_preds : forall p, lexical lx p -> p <> range_token /\ p <> body_token.

  Lemma clean_name p : lexical lx p -> clean (VStr p) = true.
  Proof.
    intros H. destruct (clean_preds p H) as (A & B). cbn [clean]. apply negb_true_iff, orb_false_iff. split; now apply String.eqb_neq.
  Qed.
  Lemma lex_noun n : In n (lx_nouns lx) -> lexical lx (snd n).
  Proof. intros H. exists n. rewrite !in_app_iff. auto. Qed.
  Lemma lex_adj n : In n (lx_adjectives lx) -> lexical lx (snd n).
  Proof. intros H. exists n. rewrite !in_app_iff. auto. Qed.
  Lemma lex_verb n : In n (lx_verbs lx) -> lexical lx (snd n).
  Proof. intros H. exists n. rewrite !in_app_iff. auto. Qed.

  Definition clean_query (q : list fol) : Prop := forallb clean (map fol_value q) = true.
  Lemma clean_app q1 q2 : clean_query (q1 ++ q2) <-> clean_query q1 /\ clean_query q2.
  Proof. unfold clean_query. rewrite map_app, forallb_app, andb_true_iff. tauto. Qed.
  Lemma clean_unary p x : lexical lx p -> clean_query [unary p x].
  Proof. intros H. pose proof (clean_name p H) as C. cbn [clean] in C. unfold clean_query.
    cbn [map fol_value unary binary atom_value fa_pred fa_args forallb clean]. rewrite C. reflexivity.
  Qed.
  Lemma clean_binary p x y : lexical lx p -> clean_query [binary p x y].
  Proof. intros H. pose proof (clean_name p H) as C. cbn [clean] in C. unfold clean_query.
    cbn [map fol_value unary binary atom_value fa_pred fa_args forallb clean]. rewrite C. reflexivity.
  Qed.

  Lemma fragment_clean :
    (forall x b q, nbar_fol x b q -> nbar_in lx b -> clean_query q) /\
    (forall x r q, rcl_fol x r q -> rcl_in lx r -> clean_query q) /\
    (forall x v q, vp_fol x v q -> vp_in lx v -> clean_query q) /\
    (forall x y o body q, np_fol x y o body q -> np_in lx o -> clean_query [body] -> clean_query q).
  Proof.
    apply fragment_fol_ind; cbn [nbar_in rcl_in vp_in np_in]; auto.
    - intros x n Hn. now apply clean_unary, lex_noun.
    - intros x a b q H IH (Ha & Hb). apply (clean_app [unary (snd a) x]). split; auto. now apply clean_unary, lex_adj.
    - intros x b r q1 q2 H1 IH1 H2 IH2 On (Hb & Hr). apply clean_app. auto.
    - intros x b r q1 q2 H1 IH1 H2 IH2 On (Hb & Hr). apply clean_app. auto.
    - intros x y t o q H IH N (Ht & Ho). apply IH; auto. now apply clean_binary, lex_verb.
    - intros x y t o q H IH N (Ht & Ho). apply IH; auto. now apply clean_binary, lex_verb.
    - intros x v q H IH Hv. specialize (IH Hv). unfold clean_query in *. cbn [map fol_value forallb clean].
      rewrite IH. reflexivity.
    - intros x y b body r H IH Nx Hb Hbody. apply clean_app. auto.
    - intros x y d b body r H IH Nx (_ & Hb) Hbody. specialize (IH Hb). unfold clean_query in *.
      rewrite det_fol_values. destruct d; cbn [det_values]; cbn [forallb clean]; rewrite ?forallb_app, ?IH, ?Hbody; reflexivity.
  Qed.

  (** ** what the phrases mean *)
  Inductive means : string -> list string -> string -> value -> Prop :=
  | m_noun x n : In n (lx_nouns lx) -> means "noun" [x] (fst n) (VList [VTuple [VStr (snd n); VVar x]])
  | m_adj x n : In n (lx_adjectives lx) -> means "adj" [x] (fst n) (VList [VTuple [VStr (snd n); VVar x]])
  | m_verb x y n : In n (lx_verbs lx) -> means "tv" [x; y] (fst n) (VList [VTuple [VStr (snd n); VVar x; VVar y]])
  | m_number x w k : In (w, k) (lx_numbers lx) -> means "number" [x] w (VInt k)
  | m_det x d : det_in lx d ->
      means "det" [x] (det_text d) (template2 (det_values d x [VStr range_token] [VStr body_token]))
  | m_nbar x b q : nbar_in lx b -> nbar_fol x b q -> means "nbar" [x] (nbar_text b) (query_of q)
  | m_rcl x r q : rcl_in lx r -> rcl_fol x r q -> means "rcl" [x] (rcl_text r) (query_of q)
  | m_vp x v q : vp_in lx v -> vp_fol x v q -> means "vp" [x] (vp_text v) (query_of q)
  | m_np x o r : np_in lx o -> nbar_fol x (np_nbar o) r ->
      means "np" [x] (np_text o) (VTmpl [Body] (np_values o x (map fol_value r) [VStr body_token]))
  | m_s x b v q1 q2 : nbar_in lx b -> vp_in lx v -> nbar_fol x b q1 -> vp_fol x v q2 -> only x q1 q2 ->
      means "s" [x] (question_text (Which b v)) (query_of (q1 ++ q2)).

  Lemma np_in_nbar o : np_in lx o -> nbar_in lx (np_nbar o).
  Proof. destruct o; cbn; tauto. Qed.
  Lemma np_values_fol o y r body : np_values o y (map fol_value r) [fol_value body] =
    map fol_value (match o with Bare _ => r ++ [body] | Det d _ => det_fol d y r [body] end).
  Proof. destruct o as [b|d b]; cbn [np_values]; [now rewrite map_app|now rewrite det_fol_values]. Qed.
  Lemma np_is_fol x y o body r : nbar_fol y (np_nbar o) r -> ~ In x (vars r) ->
    np_fol x y o body (match o with Bare _ => r ++ [body] | Det d _ => det_fol d y r [body] end).
  Proof. destruct o; cbn; intros; constructor; auto. Qed.

  (** *** inversion *)
  Lemma means_noun y w v : means "noun" [y] w v -> exists n, In n (lx_nouns lx) /\ w = fst n /\ v = VList [VTuple [VStr (snd n); VVar y]].
  Proof. intros H. inversion H; subst; eauto. Qed.
  Lemma means_adj y w v : means "adj" [y] w v -> exists n, In n (lx_adjectives lx) /\ w = fst n /\ v = VList [VTuple [VStr (snd n); VVar y]].
  Proof. intros H. inversion H; subst; eauto. Qed.
  Lemma means_verb x y w v : means "tv" [x; y] w v -> exists n, In n (lx_verbs lx) /\ w = fst n /\ v = VList [VTuple [VStr (snd n); VVar x; VVar y]].
  Proof. intros H. inversion H; subst; eauto. Qed.
  Lemma means_number y w v : means "number" [y] w v -> exists k, In (w, k) (lx_numbers lx) /\ v = VInt k.
  Proof. intros H. inversion H; subst; eauto. Qed.
  Lemma means_det y w v : means "det" [y] w v -> exists d, det_in lx d /\ w = det_text d /\
    v = template2 (det_values d y [VStr range_token] [VStr body_token]).
  Proof. intros H. inversion H; subst; eauto. Qed.
  Lemma means_nbar y w v : means "nbar" [y] w v -> exists b q, nbar_in lx b /\ nbar_fol y b q /\ w = nbar_text b /\ v = query_of q.
  Proof. intros H. inversion H; subst; eauto 7. Qed.
  Lemma means_rcl y w v : means "rcl" [y] w v -> exists b q, rcl_in lx b /\ rcl_fol y b q /\ w = rcl_text b /\ v = query_of q.
  Proof. intros H. inversion H; subst; eauto 7. Qed.
  Lemma means_vp y w v : means "vp" [y] w v -> exists b q, vp_in lx b /\ vp_fol y b q /\ w = vp_text b /\ v = query_of q.
  Proof. intros H. inversion H; subst; eauto 7. Qed.
  Lemma means_np y w v : means "np" [y] w v -> exists o r, np_in lx o /\ nbar_fol y (np_nbar o) r /\ w = np_text o /\
    v = VTmpl [Body] (np_values o y (map fol_value r) [VStr body_token]).
  Proof. intros H. inversion H; subst; eauto 7. Qed.

  Lemma phrases_end a ws vs : phrases means a [] ws vs -> ws = [] /\ vs = [].
  Proof. intros H. inversion H. auto. Qed.
  Lemma phrases_word a w o s cs ws vs : phrases means a (mkCons w [] PWord o s :: cs) ws vs ->
    exists ws', ws = w :: ws' /\ phrases means a cs ws' vs.
  Proof.
    intros H. inversion H as [|? ? ws' vs' T P|? ? w' ws' v vs' N C P]; subst; [eauto|]. exfalso. now apply N.
  Qed.
  Lemma phrases_one a c x cs ws vs : phrases means a (phrase c [x] :: cs) ws vs ->
    exists w ws' v vs' y, ws = w :: ws' /\ vs = v :: vs' /\ a x = Some y /\ means c [y] w v /\ phrases means a cs ws' vs'.
  Proof.
    intros H. inversion H as [|? ? ws' vs' T P|? ? w' ws' v vs' N C P]; subst; [discriminate|].
    destruct C as (xs & F & M). cbn in F. inversion F as [|? y ? l E F']; subst. inversion F'; subst. eauto 11.
  Qed.
  Lemma phrases_two a c x1 x2 cs ws vs : phrases means a (phrase c [x1; x2] :: cs) ws vs ->
    exists w ws' v vs' y1 y2, ws = w :: ws' /\ vs = v :: vs' /\ a x1 = Some y1 /\ a x2 = Some y2 /\ means c [y1; y2] w v /\ phrases means a cs ws' vs'.
  Proof.
    intros H. inversion H as [|? ? ws' vs' T P|? ? w' ws' v vs' N C P]; subst; [discriminate|].
    destruct C as (xs & F & M). cbn in F. inversion F as [|? y1 ? l E1' F']; subst. inversion F' as [|? y2 ? l' E2' F'']; subst. inversion F''; subst. eauto 13.
  Qed.

  Lemma fol_iterable q atoms : query_of q = VList atoms -> Forall iterable atoms.
  Proof.
    intros [= <-]. apply Forall_forall. intros y Hy. apply in_map_iff in Hy as (f & <- & _).
    destruct f; eexists; reflexivity.
  Qed.

  Lemma scoped_intro ante cons f :
    (forall y, declared (rule_of ante cons f) y -> ~ dollar y) ->
    (forall c, In c (ante :: cons) -> NoDup (k_args c)) ->
    (forall a ws vs, (forall x, declared (rule_of ante cons f) x -> a x <> None) -> scoped_args means a cons ws vs ->
       exists s, f vs = Ok s /\ (forall atoms, s = VList atoms -> Forall iterable atoms) /\
         forall y, occurs y s -> declared (rule_of ante cons f) y \/ exists v, In v vs /\ occurs y v) ->
    (forall b ws vs s xs, (forall y, dollar y -> b y = None) -> scoped_args means b cons ws vs -> f vs = Ok s ->
       Forall2 (fun x y => b x = Some y) (k_args ante) xs -> means (k_pred ante) xs (joined ws) (rename b s)) ->
    well_scoped means (rule_of ante cons f).
  Proof.
    intros Names Nd Ex Ty. constructor; auto; try discriminate.
    exists f. split; [reflexivity|]. intros a ws vs Ha Hs. destruct (Ex a ws vs Ha Hs) as (s & Ef & It & Oc).
    exists s. split; auto. split; auto. split; [intros y Hy; destruct (Oc y Hy); auto|].
    intros b xs Hb Hsb F. apply (Ty b ws vs s xs); auto. intros y Hd. destruct (b y) eqn:E; auto. exfalso.
    assert (N : b y <> None) by congruence. apply Hb in N as [N|(_ & N)]; [eapply Names; eauto|contradiction].
  Qed.

  Lemma rename_query b q : clean_query q -> (forall y, dollar y -> b y = None) -> (forall y, occurs y (query_of q) -> dollar y) ->
    rename b (query_of q) = query_of q.
  Proof. intros C Hb Hd. apply rename_clean; auto. Qed.
  Lemma not_dollar y : In y ["E1"; "E2"] -> ~ dollar y.
  Proof. intros [<-|[<-|[]]] (s & E); discriminate. Qed.

  Ltac names := let y := fresh in let H := fresh in intros y H; apply not_dollar; unfold declared in H; cbn in H;
    repeat match goal with
    | H : _ \/ _ |- _ => destruct H as [H|H]
    | H : exists _, _ |- _ => destruct H as (? & ? & H)
    | H : False |- _ => destruct H
    | H : _ = _ |- _ => subst; cbn in *
    end; auto.
  Ltac nodups := let c := fresh in let H := fresh in intros c H; cbn in H;
    repeat match goal with
    | H : _ \/ _ |- _ => destruct H as [H|H]
    | H : False |- _ => destruct H
    | H : _ = _ |- _ => subst; cbn in *
    end; repeat constructor; cbn; intuition discriminate.

  (** *** words *)
  Lemma scoped_word ante w v :
    (forall y, In y (k_args ante) -> In y ["E1"; "E2"]) -> NoDup (k_args ante) ->
    (forall y, occurs y v -> In y (k_args ante)) -> (forall atoms, v = VList atoms -> Forall iterable atoms) ->
    (forall b xs, (forall y, dollar y -> b y = None) -> Forall2 (fun x y => b x = Some y) (k_args ante) xs -> means (k_pred ante) xs w (rename b v)) ->
    well_scoped means (rule_of ante [quoted w] (no_argument v)).
  Proof.
    intros Hn Nd Oc It Ty. apply scoped_intro.
    - intros y [H|(c & [<-|[]] & [])]. now apply not_dollar, Hn.
    - intros c [<-|[<-|[]]]; [exact Nd|constructor].
    - intros a ws vs _ [_ _ P _ _ _]. apply phrases_word in P as (ws' & -> & P). apply phrases_end in P as (-> & ->).
      exists v. split; [reflexivity|]. split; auto. intros y Hy. left. left. now apply Oc.
    - intros b ws vs s xs Hb [_ _ P _ _ _] E F. apply phrases_word in P as (ws' & -> & P). apply phrases_end in P as (-> & ->).
      injection E as <-. cbn [joined fold_right]. rewrite str_app_nil. auto.
  Qed.

  Lemma tuple_iterable p l atoms : VList [VTuple (VStr p :: l)] = VList atoms -> Forall iterable atoms.
  Proof. intros [= <-]. repeat constructor. eexists. reflexivity. Qed.

  Lemma scoped_noun n : In n (lx_nouns lx) -> well_scoped means (noun_word n).
  Proof.
    intros Hn. apply scoped_word; cbn [phrase k_args k_pred].
    - intros y [<-|[]]. now left.
    - repeat constructor. intros [].
    - intros y. rewrite occurs_cons, occurs_tuple_cons, occurs_cons. unfold E1. rewrite occurs_one. intros [[->|H]|H]; [now left| |]; now apply occurs_nil in H.
    - apply tuple_iterable.
    - intros b xs Hb F. inversion F as [|? y ? l E F']; subst. inversion F'; subst. cbn. rewrite E. now constructor.
  Qed.
  Lemma scoped_adj n : In n (lx_adjectives lx) -> well_scoped means (adj_word n).
  Proof.
    intros Hn. apply scoped_word; cbn [phrase k_args k_pred].
    - intros y [<-|[]]. now left.
    - repeat constructor. intros [].
    - intros y. rewrite occurs_cons, occurs_tuple_cons, occurs_cons. unfold E1. rewrite occurs_one. intros [[->|H]|H]; [now left| |]; now apply occurs_nil in H.
    - apply tuple_iterable.
    - intros b xs Hb F. inversion F as [|? y ? l E F']; subst. inversion F'; subst. cbn. rewrite E. now constructor.
  Qed.
  Lemma scoped_verb n : In n (lx_verbs lx) -> well_scoped means (verb_word n).
  Proof.
    intros Hn. apply scoped_word; cbn [phrase k_args k_pred].
    - intros y H. exact H.
    - repeat constructor; cbn; intuition discriminate.
    - intros y. rewrite occurs_cons, occurs_tuple_cons, !occurs_cons. unfold E1, E2. rewrite !occurs_one.
      intros [[->|[->|H]]|H]; [now left|right; now left| |]; now apply occurs_nil in H.
    - apply tuple_iterable.
    - intros b xs Hb F. inversion F as [|? y ? l E F']; subst. inversion F' as [|? y2 ? l2 E2' F'']; subst. inversion F''; subst.
      cbn. rewrite E, E2'. now constructor.
  Qed.
  Lemma scoped_number n : In n (lx_numbers lx) -> well_scoped means (number_word n).
  Proof.
    intros Hn. destruct n as [w k]. apply scoped_word; cbn [phrase k_args k_pred fst snd].
    - intros y [<-|[]]. now left.
    - repeat constructor. intros [].
    - intros y H. now apply occurs_int in H.
    - discriminate.
    - intros b xs Hb F. inversion F as [|? y ? l E F']; subst. inversion F'; subst. now constructor.
  Qed.
  Lemma rename_det b d x y : b x = Some y -> rename b (template2 (det_values d x [VStr range_token] [VStr body_token])) =
    template2 (det_values d y [VStr range_token] [VStr body_token]).
  Proof. intros E. destruct d; cbn; rewrite ?E; reflexivity. Qed.
  Lemma det_occurs_tokens z d x : occurs z (template2 (det_values d x [VStr range_token] [VStr body_token])) -> z = x.
  Proof.
    unfold template2. rewrite occurs_tmpl. intros H. apply det_occurs in H as [->|[H|H]]; auto; exfalso;
      apply occurs_cons in H as [H|H]; try (now apply occurs_str in H); now apply occurs_nil in H.
  Qed.
  Lemma scoped_det w d : det_in lx d -> w = det_text d ->
    well_scoped means (rule_of (phrase "det" ["E1"]) [quoted w] (no_argument (template2 (det_values d "E1" [VStr range_token] [VStr body_token])))).
  Proof.
    intros Hd ->. apply scoped_word; cbn [phrase k_args k_pred fst snd].
    - intros y [<-|[]]. now left.
    - repeat constructor. intros [].
    - intros y H. apply det_occurs_tokens in H. now left.
    - discriminate.
    - intros b xs Hb F. inversion F as [|? y ? l E F']; subst. inversion F'; subst. rewrite (rename_det _ _ _ _ E). now constructor.
  Qed.

  Lemma scoped_det_number : well_scoped means det_number.
  Proof.
    apply scoped_intro; [names|nodups| |].
    - intros a ws vs _ [_ _ P _ _ _]. apply phrases_one in P as (w & ws' & v & vs' & y & -> & -> & Ey & M & P).
      apply phrases_end in P as (-> & ->). apply means_number in M as (k & Hk & ->).
      eexists. split; [reflexivity|]. split; [discriminate|]. intros z Hz. left. left.
      change (template2 _) with (template2 (det_values (Number w k) "E1" [VStr range_token] [VStr body_token])) in Hz.
      apply det_occurs_tokens in Hz. now left.
    - intros b ws vs s xs Hb [_ _ P _ _ _] E F. apply phrases_one in P as (w & ws' & v & vs' & y & -> & -> & Ey & M & P).
      apply phrases_end in P as (-> & ->). apply means_number in M as (k & Hk & ->).
      injection E as <-. cbn [phrase k_args] in F. inversion F as [|? y' ? l E F']; subst. inversion F'; subst.
      cbn [joined fold_right phrase k_pred]. rewrite str_app_nil.
      apply (m_det y' (Number w k)). exact Hk.
  Qed.
  Lemma scoped_det_more : well_scoped means det_more.
  Proof.
    apply scoped_intro; [names|nodups| |].
    - intros a ws vs _ [_ _ P _ _ _]. do 4 apply phrases_word in P as (? & -> & P).
      apply phrases_one in P as (w & ws' & v & vs' & y & -> & -> & Ey & M & P).
      apply phrases_end in P as (-> & ->). apply means_number in M as (k & Hk & ->).
      eexists. split; [reflexivity|]. split; [discriminate|]. intros z Hz. left. left.
      change (template2 _) with (template2 (det_values (MoreThan w k) "E1" [VStr range_token] [VStr body_token])) in Hz.
      apply det_occurs_tokens in Hz. now left.
    - intros b ws vs s xs Hb [_ _ P _ _ _] E F. do 4 apply phrases_word in P as (? & -> & P).
      apply phrases_one in P as (w & ws' & v & vs' & y & -> & -> & Ey & M & P).
      apply phrases_end in P as (-> & ->). apply means_number in M as (k & Hk & ->).
      injection E as <-. cbn [phrase k_args] in F. inversion F as [|? y' ? l E F']; subst. inversion F'; subst.
      cbn [joined fold_right phrase k_pred]. rewrite str_app_nil.
      apply (m_det y' (MoreThan w k)). exact Hk.
  Qed.

  (** *** phrases *)
  Lemma two_names (b : string -> option string) (x y : string) (xs : list string) : Forall2 (fun x y => b x = Some y) [x] xs -> b x = Some y -> xs = [y].
  Proof. intros F E. inversion F as [|? y' ? l E' F']; subst. inversion F'; subst. congruence. Qed.

  Lemma scoped_nbar_noun : well_scoped means nbar_noun.
  Proof.
    apply scoped_intro; [names|nodups| |].
    - intros a ws vs _ [_ _ P _ _ _]. apply phrases_one in P as (w & ws' & v & vs' & y & -> & -> & Ey & M & P).
      apply phrases_end in P as (-> & ->). eexists. split; [reflexivity|]. split.
      + apply means_noun in M as (n & _ & _ & ->). apply tuple_iterable.
      + intros z Hz. right. exists v. split; [now left|exact Hz].
    - intros b ws vs s xs Hb [_ _ P _ _ Hd] E F. apply phrases_one in P as (w & ws' & v & vs' & y & -> & -> & Ey & M & P).
      apply phrases_end in P as (-> & ->). injection E as <-. rewrite (two_names _ _ _ _ F Ey).
      apply means_noun in M as (n & Hn & -> & ->). cbn [joined fold_right phrase k_pred]. rewrite str_app_nil.
      change (VList [VTuple [VStr (snd n); VVar y]]) with (query_of [unary (snd n) y]) in *.
      rewrite rename_query; auto; [|now apply clean_unary, lex_noun|intros z; apply Hd; now left].
      apply (m_nbar y (Noun n)); [exact Hn|constructor].
  Qed.
  Lemma scoped_rcl_that : well_scoped means rcl_that.
  Proof.
    apply scoped_intro; [names|nodups| |].
    - intros a ws vs _ [_ _ P _ _ _]. do 2 apply phrases_word in P as (? & -> & P).
      apply phrases_one in P as (w & ws' & v & vs' & y & -> & -> & Ey & M & P).
      apply phrases_end in P as (-> & ->). eexists. split; [reflexivity|]. split.
      + apply means_vp in M as (b & q & _ & _ & _ & ->). apply fol_iterable.
      + intros z Hz. right. exists v. split; [now left|exact Hz].
    - intros b ws vs s xs Hb [_ _ P _ _ Hd] E F. do 2 apply phrases_word in P as (? & -> & P).
      apply phrases_one in P as (w & ws' & v & vs' & y & -> & -> & Ey & M & P).
      apply phrases_end in P as (-> & ->). injection E as <-. rewrite (two_names _ _ _ _ F Ey).
      apply means_vp in M as (v' & q & Hv & Hq & -> & ->). cbn [joined fold_right phrase k_pred]. rewrite str_app_nil.
      rewrite rename_query; auto; [|apply (proj1 (proj2 (proj2 fragment_clean)) _ _ _ Hq Hv)|intros z; apply Hd; now left].
      apply (m_rcl y (That v')); [exact Hv|now constructor].
  Qed.
  Lemma scoped_vp_not : well_scoped means vp_not.
  Proof.
    apply scoped_intro; [names|nodups| |].
    - intros a ws vs _ [_ _ P _ _ _]. do 4 apply phrases_word in P as (? & -> & P).
      apply phrases_one in P as (w & ws' & v & vs' & y & -> & -> & Ey & M & P).
      apply phrases_end in P as (-> & ->). eexists. split; [reflexivity|]. split.
      + apply tuple_iterable.
      + intros z Hz. right. exists v. split; [now left|]. revert Hz. rewrite occurs_cons, occurs_tuple_cons, occurs_cons.
        intros [[H|H]|H]; auto; now apply occurs_nil in H.
    - intros b ws vs s xs Hb [_ _ P _ _ Hd] E F. do 4 apply phrases_word in P as (? & -> & P).
      apply phrases_one in P as (w & ws' & v & vs' & y & -> & -> & Ey & M & P).
      apply phrases_end in P as (-> & ->). injection E as <-. rewrite (two_names _ _ _ _ F Ey).
      apply means_vp in M as (v' & q & Hv & Hq & -> & ->). cbn [joined fold_right phrase k_pred]. rewrite str_app_nil.
      change (VList [VTuple [VStr "not"; query_of q]]) with (query_of [FNot false q]).
      assert (W : vp_fol y (Not v') [FNot false q]) by now constructor.
      rewrite rename_query; auto; [|apply (proj1 (proj2 (proj2 fragment_clean)) _ _ _ W Hv)|].
      + now apply (m_vp y (Not v')).
      + intros z Hz. apply (Hd (query_of q)); [now left|]. unfold query_of in Hz. cbn [map fol_value] in Hz.
        revert Hz. rewrite occurs_cons, occurs_tuple_cons, occurs_cons. intros [[H|H]|H]; auto; now apply occurs_nil in H.
  Qed.

  (** two queries one after the other *)
  Lemma only_of b i j cs ws vs x y c1 q1 q2 : scoped_args means b cs ws vs -> i <> j ->
    nth_error (filter spoken cs) i = Some c1 -> nth_error vs i = Some (query_of q1) -> nth_error vs j = Some (query_of q2) ->
    k_args c1 = [x] -> b x = Some y -> only y q1 q2.
  Proof.
    intros Hs Hij Ec E1' E2' Ea Ey z H1 H2. destruct (sa_inner _ _ _ _ _ Hs i j c1 _ _ z Hij Ec E1' E2') as (x' & Hx & Ex).
    - now apply vars_occur.
    - now apply vars_occur.
    - rewrite Ea in Hx. destruct Hx as [<-|[]]. congruence.
  Qed.
  Lemma query_app q1 q2 : VList (map fol_value q1 ++ map fol_value q2) = query_of (q1 ++ q2).
  Proof. unfold query_of. now rewrite map_app. Qed.
  Lemma concatenate_app q1 q2 : concatenate [query_of q1; query_of q2] = Ok (query_of (q1 ++ q2)).
  Proof. rewrite <- query_app. reflexivity. Qed.
  Lemma dollar_app q1 q2 : (forall v y, In v [query_of q1; query_of q2] -> occurs y v -> dollar y) ->
    forall y, occurs y (query_of (q1 ++ q2)) -> dollar y.
  Proof.
    intros H y Hy. unfold query_of in Hy. rewrite map_app in Hy. apply occurs_app in Hy as [Hy|Hy];
      [apply (H (query_of q1))|apply (H (query_of q2))]; cbn; auto.
  Qed.
  Lemma concat_children q1 q2 z : occurs z (VList (map fol_value q1 ++ map fol_value q2)) ->
    exists v, In v [query_of q1; query_of q2] /\ occurs z v.
  Proof. rewrite occurs_app. intros [H|H]; [exists (query_of q1)|exists (query_of q2)]; cbn; auto. Qed.

  Lemma scoped_nbar_adj : well_scoped means nbar_adj.
  Proof.
    assert (Inv : forall a ws vs, phrases means a (g_cons nbar_adj) ws vs -> exists y n b q,
      a "E1" = Some y /\ In n (lx_adjectives lx) /\ nbar_in lx b /\ nbar_fol y b q /\
      joined ws = nbar_text (Adj n b) /\ vs = [query_of [unary (snd n) y]; query_of q]).
    { intros a ws vs P. cbn in P. apply phrases_one in P as (w & ws' & v & vs' & y & -> & -> & Ey & M & P).
      apply phrases_word in P as (? & -> & P). apply phrases_one in P as (w2 & ws2 & v2 & vs2 & y2 & -> & -> & Ey2 & M2 & P).
      apply phrases_end in P as (-> & ->). assert (y2 = y) by congruence; subst y2.
      apply means_adj in M as (n & Hn & -> & ->). apply means_nbar in M2 as (b & q & Hb & Hq & -> & ->).
      exists y, n, b, q. repeat (split; [solve [assumption|auto]|]). cbn [joined fold_right]. rewrite str_app_nil. auto. }
    apply scoped_intro; [names|nodups| |].
    - intros a ws vs _ [_ _ P _ _ _]. destruct (Inv _ _ _ P) as (y & n & b & q & Ey & Hn & Hb & Hq & _ & ->).
      eexists. split; [apply concatenate_app|]. split; [apply fol_iterable|].
      intros z Hz. right. apply concat_children. now rewrite query_app.
    - intros b0 ws vs s xs Hb0 Hs E F. destruct (Inv _ _ _ (sa_typed _ _ _ _ _ Hs)) as (y & n & b & q & Ey & Hn & Hb & Hq & -> & ->).
      rewrite (two_names _ _ _ _ F Ey). rewrite concatenate_app in E. injection E as <-.
      assert (W : nbar_fol y (Adj n b) ([unary (snd n) y] ++ q)) by now constructor.
      rewrite rename_query; auto.
      + now apply (m_nbar y (Adj n b)).
      + apply (proj1 fragment_clean _ _ _ W). split; auto.
      + apply (dollar_app [unary (snd n) y] q). apply (sa_names _ _ _ _ _ Hs).
  Qed.
  Lemma scoped_nbar_rel : well_scoped means nbar_rel.
  Proof.
    assert (Inv : forall a ws vs, phrases means a (g_cons nbar_rel) ws vs -> exists y b r q1 q2,
      a "E1" = Some y /\ nbar_in lx b /\ rcl_in lx r /\ nbar_fol y b q1 /\ rcl_fol y r q2 /\
      joined ws = nbar_text (Rel b r) /\ vs = [query_of q1; query_of q2]).
    { intros a ws vs P. cbn in P. apply phrases_one in P as (w & ws' & v & vs' & y & -> & -> & Ey & M & P).
      apply phrases_word in P as (? & -> & P). apply phrases_one in P as (w2 & ws2 & v2 & vs2 & y2 & -> & -> & Ey2 & M2 & P).
      apply phrases_end in P as (-> & ->). assert (y2 = y) by congruence; subst y2.
      apply means_nbar in M as (b & q & Hb & Hq & -> & ->). apply means_rcl in M2 as (r & q2 & Hr & Hq2 & -> & ->).
      exists y, b, r, q, q2. repeat (split; [solve [assumption|auto]|]). cbn [joined fold_right]. rewrite str_app_nil. auto. }
    apply scoped_intro; [names|nodups| |].
    - intros a ws vs _ [_ _ P _ _ _]. destruct (Inv _ _ _ P) as (y & b & r & q1 & q2 & Ey & Hb & Hr & H1 & H2 & _ & ->).
      eexists. split; [apply concatenate_app|]. split; [apply fol_iterable|].
      intros z Hz. right. apply concat_children. now rewrite query_app.
    - intros b0 ws vs s xs Hb0 Hs E F. destruct (Inv _ _ _ (sa_typed _ _ _ _ _ Hs)) as (y & b & r & q1 & q2 & Ey & Hb & Hr & H1 & H2 & -> & ->).
      rewrite (two_names _ _ _ _ F Ey). rewrite concatenate_app in E. injection E as <-.
      assert (On : only y q1 q2) by (eapply (only_of b0 0 1); [exact Hs|lia| | | | | ]; try reflexivity; exact Ey).
      assert (W : nbar_fol y (Rel b r) (q1 ++ q2)) by now constructor.
      rewrite rename_query; auto.
      + apply (m_nbar y (Rel b r)); [split|]; auto.
      + apply (proj1 fragment_clean _ _ _ W). split; auto.
      + apply dollar_app. apply (sa_names _ _ _ _ _ Hs).
  Qed.
  Lemma scoped_rcl_and : well_scoped means rcl_and.
  Proof.
    assert (Inv : forall a ws vs, phrases means a (g_cons rcl_and) ws vs -> exists y r1 r2 q1 q2,
      a "E1" = Some y /\ rcl_in lx r1 /\ rcl_in lx r2 /\ rcl_fol y r1 q1 /\ rcl_fol y r2 q2 /\
      joined ws = rcl_text (And r1 r2) /\ vs = [query_of q1; query_of q2]).
    { intros a ws vs P. cbn in P. apply phrases_one in P as (w & ws' & v & vs' & y & -> & -> & Ey & M & P).
      do 3 apply phrases_word in P as (? & -> & P). apply phrases_one in P as (w2 & ws2 & v2 & vs2 & y2 & -> & -> & Ey2 & M2 & P).
      apply phrases_end in P as (-> & ->). assert (y2 = y) by congruence; subst y2.
      apply means_rcl in M as (b & q & Hb & Hq & -> & ->). apply means_rcl in M2 as (r & q2 & Hr & Hq2 & -> & ->).
      exists y, b, r, q, q2. repeat (split; [solve [assumption|auto]|]). cbn [joined fold_right]. rewrite str_app_nil. auto. }
    apply scoped_intro; [names|nodups| |].
    - intros a ws vs _ [_ _ P _ _ _]. destruct (Inv _ _ _ P) as (y & b & r & q1 & q2 & Ey & Hb & Hr & H1 & H2 & _ & ->).
      eexists. split; [apply concatenate_app|]. split; [apply fol_iterable|].
      intros z Hz. right. apply concat_children. now rewrite query_app.
    - intros b0 ws vs s xs Hb0 Hs E F. destruct (Inv _ _ _ (sa_typed _ _ _ _ _ Hs)) as (y & b & r & q1 & q2 & Ey & Hb & Hr & H1 & H2 & -> & ->).
      rewrite (two_names _ _ _ _ F Ey). rewrite concatenate_app in E. injection E as <-.
      assert (On : only y q1 q2) by (eapply (only_of b0 0 1); [exact Hs|lia| | | | | ]; try reflexivity; exact Ey).
      assert (W : rcl_fol y (And b r) (q1 ++ q2)) by now constructor.
      rewrite rename_query; auto.
      + apply (m_rcl y (And b r)); [split|]; auto.
      + apply (proj1 (proj2 fragment_clean) _ _ _ W). split; auto.
      + apply dollar_app. apply (sa_names _ _ _ _ _ Hs).
  Qed.
  Lemma scoped_s : well_scoped means s_which.
  Proof.
    assert (Inv : forall a ws vs, phrases means a (g_cons s_which) ws vs -> exists y b v q1 q2,
      a "E1" = Some y /\ nbar_in lx b /\ vp_in lx v /\ nbar_fol y b q1 /\ vp_fol y v q2 /\
      joined ws = question_text (Which b v) /\ vs = [query_of q1; query_of q2]).
    { intros a ws vs P. cbn in P. do 2 apply phrases_word in P as (? & -> & P).
      apply phrases_one in P as (w & ws' & v & vs' & y & -> & -> & Ey & M & P).
      apply phrases_word in P as (? & -> & P). apply phrases_one in P as (w2 & ws2 & v2 & vs2 & y2 & -> & -> & Ey2 & M2 & P).
      apply phrases_end in P as (-> & ->). assert (y2 = y) by congruence; subst y2.
      apply means_nbar in M as (b & q & Hb & Hq & -> & ->). apply means_vp in M2 as (r & q2 & Hr & Hq2 & -> & ->).
      exists y, b, r, q, q2. repeat (split; [solve [assumption|auto]|]). cbn [joined fold_right]. rewrite str_app_nil. auto. }
    apply scoped_intro; [names|nodups| |].
    - intros a ws vs _ [_ _ P _ _ _]. destruct (Inv _ _ _ P) as (y & b & r & q1 & q2 & Ey & Hb & Hr & H1 & H2 & _ & ->).
      eexists. split; [apply concatenate_app|]. split; [apply fol_iterable|].
      intros z Hz. right. apply concat_children. now rewrite query_app.
    - intros b0 ws vs s xs Hb0 Hs E F. destruct (Inv _ _ _ (sa_typed _ _ _ _ _ Hs)) as (y & b & r & q1 & q2 & Ey & Hb & Hr & H1 & H2 & -> & ->).
      rewrite (two_names _ _ _ _ F Ey). rewrite concatenate_app in E. injection E as <-.
      assert (On : only y q1 q2) by (eapply (only_of b0 0 1); [exact Hs|lia| | | | | ]; try reflexivity; exact Ey).
      rewrite rename_query; auto.
      + now apply m_s.
      + apply clean_app. split; [apply (proj1 fragment_clean _ _ _ H1 Hb)|apply (proj1 (proj2 (proj2 fragment_clean)) _ _ _ H2 Hr)].
      + apply dollar_app. apply (sa_names _ _ _ _ _ Hs).
  Qed.

  (** *** noun phrases *)
  Lemma rename_values b l : forallb clean l = true -> (forall y, dollar y -> b y = None) -> (forall y, occurs y (VList l) -> dollar y) ->
    map (rename b) l = l.
  Proof.
    intros C Hb Hd. assert (E : rename b (VList l) = VList l) by (apply rename_clean; auto). now injection E.
  Qed.
  Lemma rename_np b o y l : b y = None -> map (rename b) l = l ->
    rename b (VTmpl [Body] (np_values o y l [VStr body_token])) = VTmpl [Body] (np_values o y l [VStr body_token]).
  Proof.
    intros Ey El. destruct o as [nb|d nb]; cbn [np_values]; [|destruct d; cbn [det_values]]; cbn [rename map];
      rewrite ?map_app, ?El, ?Ey; reflexivity.
  Qed.
  Lemma scoped_np_bare : well_scoped means np_bare.
  Proof.
    apply scoped_intro; [names|nodups| |].
    - intros a ws vs _ [_ _ P _ _ _]. apply phrases_one in P as (w & ws' & v & vs' & y & -> & -> & Ey & M & P).
      apply phrases_end in P as (-> & ->). apply means_nbar in M as (b & q & _ & _ & _ & ->).
      eexists. split; [reflexivity|]. split; [discriminate|].
      intros z Hz. right. exists (query_of q). split; [now left|]. apply occurs_tmpl, occurs_app in Hz as [Hz|Hz]; auto.
      apply occurs_cons in Hz as [Hz|Hz]; [now apply occurs_str in Hz|now apply occurs_nil in Hz].
    - intros b0 ws vs s xs Hb0 [_ Dl P _ _ Hd] E F. apply phrases_one in P as (w & ws' & v & vs' & y & -> & -> & Ey & M & P).
      apply phrases_end in P as (-> & ->). rewrite (two_names _ _ _ _ F Ey).
      apply means_nbar in M as (b & q & Hb & Hq & -> & ->). cbn [joined fold_right phrase k_pred]. rewrite str_app_nil.
      injection E as <-. change (map fol_value q ++ [VStr body_token]) with (np_values (Bare b) y (map fol_value q) [VStr body_token]).
      rewrite rename_np.
      + now apply (m_np y (Bare b)).
      + apply Hb0. eapply Dl. exact Ey.
      + apply rename_values; auto; [apply (proj1 fragment_clean _ _ _ Hq Hb)|]. intros z. apply (Hd (query_of q)). now left.
  Qed.
  Lemma scoped_np_det : well_scoped means np_det.
  Proof.
    assert (Inv : forall a ws vs, phrases means a (g_cons np_det) ws vs -> exists y d b q,
      a "E1" = Some y /\ det_in lx d /\ nbar_in lx b /\ nbar_fol y b q /\
      joined ws = np_text (Det d b) /\ vs = [template2 (det_values d y [VStr range_token] [VStr body_token]); query_of q]).
    { intros a ws vs P. cbn in P. apply phrases_one in P as (w & ws' & v & vs' & y & -> & -> & Ey & M & P).
      apply phrases_word in P as (? & -> & P). apply phrases_one in P as (w2 & ws2 & v2 & vs2 & y2 & -> & -> & Ey2 & M2 & P).
      apply phrases_end in P as (-> & ->). assert (y2 = y) by congruence; subst y2.
      apply means_det in M as (d & Hd & -> & ->). apply means_nbar in M2 as (b & q & Hb & Hq & -> & ->).
      exists y, d, b, q. repeat (split; [solve [assumption|auto]|]). cbn [joined fold_right]. rewrite str_app_nil. auto. }
    assert (Ap : forall y d b q, nbar_in lx b -> nbar_fol y b q ->
      (match [template2 (det_values d y [VStr range_token] [VStr body_token]); query_of q] with
       | [det; nbar] => obind (apply det [nbar; Body]) template1 | _ => Exn TypeErr end) =
      Ok (VTmpl [Body] (np_values (Det d b) y (map fol_value q) [VStr body_token]))).
    { intros y d b q Hb Hq. unfold query_of. rewrite det_apply; [reflexivity|]. apply (proj1 fragment_clean _ _ _ Hq Hb). }
    apply scoped_intro; [names|nodups| |].
    - intros a ws vs _ [_ _ P _ _ _]. destruct (Inv _ _ _ P) as (y & d & b & q & Ey & Hd & Hb & Hq & _ & ->).
      eexists. split; [exact (Ap y d b q Hb Hq)|]. split; [discriminate|].
      intros z Hz. right. apply occurs_tmpl, np_occurs in Hz as [->|[Hz|Hz]].
      + exists (query_of q). split; [right; now left|]. apply vars_occur, (nbar_var _ _ _ Hq).
      + exists (query_of q). split; [right; now left|exact Hz].
      + apply occurs_cons in Hz as [Hz|Hz]; [now apply occurs_str in Hz|now apply occurs_nil in Hz].
    - intros b0 ws vs s xs Hb0 Hs E F. destruct (Inv _ _ _ (sa_typed _ _ _ _ _ Hs)) as (y & d & b & q & Ey & Hd & Hb & Hq & -> & ->).
      rewrite (two_names _ _ _ _ F Ey). assert (Es := eq_trans (eq_sym E) (Ap y d b q Hb Hq)). assert (Es' : s = VTmpl [Body] (np_values (Det d b) y (map fol_value q) [VStr body_token])) by congruence. subst s.
      rewrite rename_np.
      + apply (m_np y (Det d b)); [split|]; auto.
      + apply Hb0. eapply sa_dollar; [exact Hs|exact Ey].
      + apply rename_values; auto; [apply (proj1 fragment_clean _ _ _ Hq Hb)|].
        intros z. apply (sa_names _ _ _ _ _ Hs (query_of q)). right. now left.
  Qed.

  (** *** verb phrases *)
  Lemma vp_apply o y r f : np_in lx o -> nbar_fol y (np_nbar o) r ->
    apply (VTmpl [Body] (np_values o y (map fol_value r) [VStr body_token])) [query_of [f]] =
    Ok (query_of (match o with Bare _ => r ++ [f] | Det d _ => det_fol d y r [f] end)).
  Proof.
    intros Ho Hr. unfold query_of. rewrite np_apply.
    - rewrite <- np_values_fol. reflexivity.
    - apply (proj1 fragment_clean _ _ _ Hr). now apply np_in_nbar.
  Qed.
  Lemma vp_occurs z o y r f : nbar_fol y (np_nbar o) r ->
    occurs z (query_of (match o with Bare _ => r ++ [f] | Det d _ => det_fol d y r [f] end)) ->
    occurs z (query_of [f]) \/ occurs z (VTmpl [Body] (np_values o y (map fol_value r) [VStr body_token])).
  Proof.
    intros Hr H. unfold query_of in H. rewrite <- np_values_fol in H. apply np_occurs in H as [->|[H|H]]; auto.
    - right. apply occurs_tmpl, np_occurs_range. apply (vars_occur r), (nbar_var _ _ _ Hr).
    - right. now apply occurs_tmpl, np_occurs_range.
  Qed.
  Lemma scoped_vp_active : well_scoped means vp_active.
  Proof.
    assert (Inv : forall a ws vs, phrases means a (g_cons vp_active) ws vs -> exists x y t o r,
      a "E1" = Some x /\ a "E2" = Some y /\ In t (lx_verbs lx) /\ np_in lx o /\ nbar_fol y (np_nbar o) r /\
      joined ws = vp_text (Active t o) /\
      vs = [query_of [binary (snd t) x y]; VTmpl [Body] (np_values o y (map fol_value r) [VStr body_token])]).
    { intros a ws vs P. cbn in P. apply phrases_two in P as (w & ws' & v & vs' & y1 & y2 & -> & -> & Ey1 & Ey2 & M & P).
      apply phrases_word in P as (? & -> & P). apply phrases_one in P as (w2 & ws2 & v2 & vs2 & y3 & -> & -> & Ey3 & M2 & P).
      apply phrases_end in P as (-> & ->). assert (y3 = y2) by congruence; subst y3.
      apply means_verb in M as (t & Ht & -> & ->). apply means_np in M2 as (o & r & Ho & Hr & -> & ->).
      exists y1, y2, t, o, r. repeat (split; [solve [assumption|auto]|]). cbn [joined fold_right]. rewrite str_app_nil. auto. }
    apply scoped_intro; [names|nodups| |].
    - intros a ws vs _ [_ _ P _ _ _]. destruct (Inv _ _ _ P) as (x & y & t & o & r & Ex & Ey & Ht & Ho & Hr & _ & ->).
      eexists. split; [apply vp_apply; auto|]. split; [apply fol_iterable|].
      intros z Hz. right. apply vp_occurs in Hz as [Hz|Hz]; auto; eexists; (split; [|exact Hz]); cbn; auto.
    - intros b0 ws vs s xs Hb0 Hs E F. destruct (Inv _ _ _ (sa_typed _ _ _ _ _ Hs)) as (x & y & t & o & r & Ex & Ey & Ht & Ho & Hr & -> & ->).
      rewrite (two_names _ _ _ _ F Ex). rewrite vp_apply in E by assumption. injection E as <-.
      assert (Nxy : x <> y) by (intros <-; pose proof (sa_inj _ _ _ _ _ Hs _ _ _ Ex Ey); discriminate).
      assert (Nx : ~ In x (vars r)).
      { intros Hx. assert (In "E1" ["E2"]) as [E|[]]; [|discriminate E].
        apply (sa_outer _ _ _ _ _ Hs 1 (phrase "np" ["E2"]) _ "E1" x eq_refl eq_refl); [|exact Ex].
        apply occurs_tmpl, np_occurs_range. now apply (vars_occur r). }
      assert (W : vp_fol x (Active t o) (match o with Bare _ => r ++ [binary (snd t) x y] | Det d _ => det_fol d y r [binary (snd t) x y] end)).
      { apply vf_active with y; auto. now apply np_is_fol. }
      rewrite rename_query; auto.
      + apply (m_vp x (Active t o)); [split|]; auto.
      + apply (proj1 (proj2 (proj2 fragment_clean)) _ _ _ W). split; auto.
      + intros z Hz. apply vp_occurs in Hz as [Hz|Hz]; auto; apply (sa_names _ _ _ _ _ Hs) in Hz; cbn; auto.
  Qed.
  Lemma scoped_vp_passive : well_scoped means vp_passive.
  Proof.
    assert (Inv : forall a ws vs, phrases means a (g_cons vp_passive) ws vs -> exists x y t o r,
      a "E1" = Some x /\ a "E2" = Some y /\ In t (lx_verbs lx) /\ np_in lx o /\ nbar_fol y (np_nbar o) r /\
      joined ws = vp_text (Passive t o) /\
      vs = [query_of [binary (snd t) y x]; VTmpl [Body] (np_values o y (map fol_value r) [VStr body_token])]).
    { intros a ws vs P. cbn in P. do 2 apply phrases_word in P as (? & -> & P).
      apply phrases_two in P as (w & ws' & v & vs' & y1 & y2 & -> & -> & Ey1 & Ey2 & M & P).
      do 3 apply phrases_word in P as (? & -> & P). apply phrases_one in P as (w2 & ws2 & v2 & vs2 & y3 & -> & -> & Ey3 & M2 & P).
      apply phrases_end in P as (-> & ->). assert (y3 = y1) by congruence; subst y3.
      apply means_verb in M as (t & Ht & -> & ->). apply means_np in M2 as (o & r & Ho & Hr & -> & ->).
      exists y2, y1, t, o, r. repeat (split; [solve [assumption|auto]|]). cbn [joined fold_right]. rewrite str_app_nil. auto. }
    apply scoped_intro; [names|nodups| |].
    - intros a ws vs _ [_ _ P _ _ _]. destruct (Inv _ _ _ P) as (x & y & t & o & r & Ex & Ey & Ht & Ho & Hr & _ & ->).
      eexists. split; [apply vp_apply; auto|]. split; [apply fol_iterable|].
      intros z Hz. right. apply vp_occurs in Hz as [Hz|Hz]; auto; eexists; (split; [|exact Hz]); cbn; auto.
    - intros b0 ws vs s xs Hb0 Hs E F. destruct (Inv _ _ _ (sa_typed _ _ _ _ _ Hs)) as (x & y & t & o & r & Ex & Ey & Ht & Ho & Hr & -> & ->).
      rewrite (two_names _ _ _ _ F Ex). rewrite vp_apply in E by assumption. injection E as <-.
      assert (Nxy : x <> y) by (intros <-; pose proof (sa_inj _ _ _ _ _ Hs _ _ _ Ex Ey); discriminate).
      assert (Nx : ~ In x (vars r)).
      { intros Hx. assert (In "E1" ["E2"]) as [E|[]]; [|discriminate E].
        apply (sa_outer _ _ _ _ _ Hs 1 (phrase "np" ["E2"]) _ "E1" x eq_refl eq_refl); [|exact Ex].
        apply occurs_tmpl, np_occurs_range. now apply (vars_occur r). }
      assert (W : vp_fol x (Passive t o) (match o with Bare _ => r ++ [binary (snd t) y x] | Det d _ => det_fol d y r [binary (snd t) y x] end)).
      { apply vf_passive with y; auto. now apply np_is_fol. }
      rewrite rename_query; auto.
      + apply (m_vp x (Passive t o)); [split|]; auto.
      + apply (proj1 (proj2 (proj2 fragment_clean)) _ _ _ W). split; auto.
      + intros z Hz. apply vp_occurs in Hz as [Hz|Hz]; auto; apply (sa_names _ _ _ _ _ Hs) in Hz; cbn; auto.
  Qed.

  Theorem fragment_scoped r : In r (fragment lx) -> well_scoped means r.
  Proof.
    unfold fragment. rewrite !in_app_iff, !in_map_iff.
    intros [H|[(w & <- & H)|[(n & <- & H)|[(n & <- & H)|[(n & <- & H)|(n & <- & H)]]]]].
    - cbn in H. repeat destruct H as [<-|H]; [..|destruct H].
      + apply scoped_s.
      + apply scoped_vp_active.
      + apply scoped_vp_passive.
      + apply scoped_vp_not.
      + apply scoped_nbar_noun.
      + apply scoped_nbar_adj.
      + apply scoped_nbar_rel.
      + apply scoped_rcl_that.
      + apply scoped_rcl_and.
      + apply scoped_np_bare.
      + apply scoped_np_det.
      + apply (scoped_det "no" No); [exact I|reflexivity].
      + apply (scoped_det "every" Every); [exact I|reflexivity].
      + apply scoped_det_number.
      + apply scoped_det_more.
    - now apply (scoped_det w (Some_ w)).
    - now apply scoped_noun.
    - now apply scoped_adj.
    - now apply scoped_verb.
    - now apply scoped_number.
  Qed.
End Fragment.
