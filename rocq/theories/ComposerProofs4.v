(** * Composing a parse tree does not fail by itself *)

From Coq Require Import ZArith String Ascii List Bool Lia.
From Verif Require Import Py PyFacts Effects EffectsFacts Grammar Earley ParserSpec Composer ComposerSpec
  ComposerProofs ComposerProofs2 ComposerProofs3.
Import ListNotations.
Local Open Scope string_scope.
Local Open Scope list_scope.
Local Open Scope monad_scope.

Definition iterable (v : value) : Prop := exists e, elements v = Some e.
(** the constituents with a value: all but the words *)
Definition spoken (c : constituent) : bool := negb (ptype_eqb (k_type c) PWord).

Definition rule_of (t : ctree) : crule := match t with Node _ _ _ r => r end.
Definition arity (t : ctree) : nat := length (k_args (g_ante (rule_of t))).

Section Typed.
(** the values that the constituents of a category may have *)
Variable T : constituent -> value -> Prop.

(** The values do not depend on the names of the variables. *)
Record type_ok : Prop := {
  ty_kind : forall c c' v, same_kind c c' -> T c v -> T c' v;
  ty_rename : forall c a v, T c v -> T c (rename a v);
  ty_regexp : forall c w, k_type c = PRegExp -> T c (VStr w)
}.

(** The functions of a rule take values of the constituents; [sem] returns a
    value of the antecedent (if it is a list, a list of atoms), [exec] and
    [dialog] return lists or tuples. *)
Record well_typed (r : crule) : Prop := {
  wt_sem : exists f, m_sem (g_mean r) = Some f /\
    forall args, Forall2 T (filter spoken (g_cons r)) args ->
      exists v, f args = Ok v /\ T (g_ante r) v /\ forall atoms, v = VList atoms -> Forall iterable atoms;
  wt_exec : forall g, m_exec (g_mean r) = Some g ->
    forall args, Forall2 T (filter spoken (g_cons r)) args -> exists v, g args = Ok v /\ iterable v;
  wt_dialog : forall g, m_dialog (g_mean r) = DCall g ->
    forall args, Forall2 T (filter spoken (g_cons r)) args -> exists v, g args = Ok v /\ iterable v
}.

Inductive fits : constituent -> ctree -> Prop :=
| fits_word c cat form r : k_type c = PWord -> form <> "" -> m_sem (g_mean r) = None -> fits c (Node cat [] form r)
| fits_regexp c cat form r f v : k_type c = PRegExp -> m_sem (g_mean r) = Some f -> f [] = Ok v -> T c v ->
    fits c (Node cat [] form r)
| fits_node c cat t ts form r : k_type c = PRelation -> same_kind (g_ante r) c -> well_typed r ->
    fits_all (g_cons r) (t :: ts) -> fits c (Node cat (t :: ts) form r)
with fits_all : list constituent -> list ctree -> Prop :=
| fits_none : fits_all [] []
| fits_more c cs t ts : fits c t -> fits_all cs ts -> fits_all (c :: cs) (t :: ts).

Definition returns {A} (m : M nat A) (n : nat) (P : A -> Prop) : Prop := exists a n', m n = (Ok a, n') /\ P a.

Lemma returns_bind {A B} (m : M nat A) (f : A -> M nat B) n P Q :
  returns m n P -> (forall a n', P a -> returns (f a) n' Q) -> returns (bind m f) n Q.
Proof.
  intros (a & n' & E & Ha) H. destruct (H a n' Ha) as (b & n2 & F & Hb). exists b, n2. split; auto.
  unfold bind. now rewrite E.
Qed.
Lemma returns_ret {A} (a : A) n (P : A -> Prop) : P a -> returns (ret a) n P.
Proof. intros H. exists a, n. auto. Qed.
Lemma returns_fold {A B} (f : B -> A -> M nat B) l (P : B -> Prop) :
  (forall b a n, In a l -> P b -> returns (f b a) n P) -> forall b n, P b -> returns (foldM f b l) n P.
Proof.
  induction l as [|a l IH]; intros Hf b n Hb; cbn; [now apply returns_ret|].
  apply returns_bind with (P := P).
  - apply Hf; auto. now left.
  - intros b' n' Hb'. apply IH; auto. intros b2 a2 n2 Ha. apply Hf. now right.
Qed.
Lemma returns_weaken {A} (m : M nat A) n (P Q : A -> Prop) : (forall a, P a -> Q a) -> returns m n P -> returns m n Q.
Proof. intros H (a & n' & E & Ha). exists a, n'. auto. Qed.
Definition any {A} (_ : A) : Prop := True.

Lemma iterable_unify m v : iterable v -> iterable (unify_variables m v).
Proof. intros (e & E). destruct v; try discriminate; cbn; eexists; reflexivity. Qed.

Lemma returns_extend l v n : iterable v -> returns (@extend nat l v) n any.
Proof. intros (e & E). unfold extend. rewrite E. now apply returns_ret. Qed.

Lemma create_returns r incoming n : length incoming = length (k_args (g_ante r)) ->
  returns (create_map r incoming) n (fun m => forall x, declared r x -> mget x m <> None).
Proof.
  intros L.
  assert (R : returns (create_map r incoming) n any).
  { unfold create_map. apply returns_bind with (P := any).
    - revert L. generalize (k_args (g_ante r)), (@nil (string * string)). intros args. revert incoming.
      induction args as [|a args IH]; intros incoming m L; cbn; [now apply returns_ret|].
      destruct incoming as [|v incoming]; [discriminate|]. apply IH. now injection L.
    - intros m n' _. apply returns_fold; [|exact I]. intros m1 c n1 _ _. apply returns_fold; [|exact I].
      intros m2 arg n2 _ _. unfold map_argument. destruct (mget arg m2); [now apply returns_ret|].
      eexists _, _. split; [reflexivity|exact I]. }
  destruct R as (m & n' & E & _). exists m, n'. split; auto.
  destruct (create_map_result _ _ _ _ _ E) as (_ & K & _). intros x. apply K.
Qed.

Lemma node_returns r m sems infs exe n : type_ok -> well_typed r -> Forall2 T (filter spoken (g_cons r)) sems ->
  returns (compose_node r m sems infs exe) n (fun p => T (g_ante r) (fst (fst p)) /\ iterable (snd p)).
Proof.
  intros TY [(f & Ef & Hf) He Hd] Hs0. unfold compose_node.
  apply returns_bind with (P := fun s => T (g_ante r) s /\ forall atoms, s = VList atoms -> Forall iterable atoms).
  { unfold call_sem, call. rewrite Ef. destruct (Hf sems Hs0) as (v & E & Hv). exists v, n. rewrite E. auto. }
  intros s n1 (Ts & Hs). apply returns_bind with (P := iterable).
  { destruct (m_exec (g_mean r)) as [g|].
    - destruct (He g eq_refl sems Hs0) as (v & E & Hv). exists v, n1. unfold call. rewrite E. auto.
    - apply returns_ret. eexists; reflexivity. }
  intros x n2 Hx. apply returns_bind with (P := any).
  { destruct (m_dialog (g_mean r)) as [l|g].
    - now apply returns_ret.
    - apply returns_bind with (P := iterable).
      + destruct (Hd g eq_refl sems Hs0) as (v & E & Hv). exists v, n2. unfold call. rewrite E. auto.
      + intros v n3 Hv. now apply returns_extend. }
  intros d n3 _. apply returns_bind with (P := any).
  { unfold extend_map_with_semantics. destruct s; try (now apply returns_ret).
    specialize (Hs _ eq_refl). rewrite Forall_forall in Hs.
    apply returns_fold; [|exact I]. intros m1 atom n4 Ha _. destruct (Hs atom Ha) as (e & ->).
    apply returns_fold; [|exact I]. intros m2 arg n5 _ _. unfold map_semantic_argument.
    destruct arg; try (now apply returns_ret). destruct (mget name m2); [now apply returns_ret|].
    destruct (generated name); [now apply returns_ret|]. eexists _, _. split; [reflexivity|exact I]. }
  intros m' n4 _. apply returns_ret. cbn. split.
  - rewrite unify_rename. now apply (ty_rename TY).
  - now apply iterable_unify.
Qed.

Lemma compose_returns t : type_ok -> forall c, fits c t -> ~ leaf t -> forall incoming n, length incoming = arity t ->
  returns (compose t incoming) n (fun p => T c (fst (fst p)) /\ iterable (snd p)).
Proof.
  intros TY. induction t as [cat ts form r IH] using ctree_ind. intros c F NL incoming n L.
  inversion F as [| |c' cat' t0 ts0 form' r' Tc SK Fr Fa]; subst; try (now destruct NL). clear NL F.
  remember (t0 :: ts0) as ts eqn:Ets. clear Ets.
  rewrite compose_eq. apply returns_bind with (P := fun m => forall x, declared r x -> mget x m <> None).
  { now apply create_returns. }
  intros m n1 Hm. apply returns_bind with (P := fun acc => Forall2 T (filter spoken (g_cons r)) (fst (fst acc))).
  2: { intros acc n2 Hs. apply returns_weaken with (P := fun p => T (g_ante r) (fst (fst p)) /\ iterable (snd p)).
       - intros p (A & B). split; auto. now apply (ty_kind TY) with (g_ante r).
       - now apply node_returns. }
  assert (Hc : forall c x, In c (g_cons r) -> In x (k_args c) -> mget x m <> None).
  { intros c1 x Hc Hx. apply Hm. right. eauto. }
  clear Hm Fr L SK.
  assert (G : forall conss sems infs exe, fits_all conss ts ->
    (forall c x, In c conss -> In x (k_args c) -> mget x m <> None) -> forall n1,
    returns (children_loop m ts conss sems infs exe) n1
      (fun acc => exists s, fst (fst acc) = sems ++ s /\ Forall2 T (filter spoken conss) s)).
  { clear Fa Hc. induction IH as [|t ts Ht Hts IH2]; intros conss sems infs exe Fa Hc n2;
      inversion Fa as [|c1 cs t' ts' Ft Fa']; subst.
    { apply returns_ret. exists []. rewrite app_nil_r. split; [reflexivity|constructor]. }
    assert (Hc' : forall c x, In c cs -> In x (k_args c) -> mget x m <> None)
      by (intros c' x Hc' Hx; apply (Hc c' x); [now right|exact Hx]).
    assert (Skip : forall v e i n3, T c1 v -> spoken c1 = true ->
      returns (children_loop m ts cs (sems ++ [v]) i e) n3
        (fun acc => exists s, fst (fst acc) = sems ++ s /\ Forall2 T (filter spoken (c1 :: cs)) s)).
    { intros v e i n3 Tv Sp. eapply returns_weaken; [|now apply IH2]. intros acc (s & Es & Fs).
      exists (v :: s). rewrite <- app_assoc in Es. split; [exact Es|]. cbn. rewrite Sp. constructor; assumption. }
    destruct t as [cat1 ts1 form1 r1].
    inversion Ft as [? ? ? ? Kc Nf Em|? ? ? ? f v Kc Em Ev Tv|? ? t1 ts2 ? ? Kc SK Wt Fa1]; subst.
    - cbn. rewrite Em. assert (Sp : spoken c1 = false) by (unfold spoken; now rewrite Kc). rewrite Sp. now apply IH2.
    - cbn [children_loop]. rewrite Em. assert (Sp : spoken c1 = true) by (unfold spoken; now rewrite Kc).
      apply returns_bind with (P := T c1).
      + exists v, n2. unfold call. rewrite Ev. auto.
      + intros w n3 Tw. now apply Skip.
    - assert (Sp : spoken c1 = true) by (unfold spoken; now rewrite Kc).
      cbn [children_loop]. apply returns_bind with (P := fun vs => length vs = length (k_args c1)).
      { assert (Hx : forall x, In x (k_args c1) -> mget x m <> None) by (intros x; apply Hc; now left).
        clear -Hx. induction (k_args c1) as [|a l IHl]; cbn; [now apply returns_ret|].
        destruct (mget a m) as [v|] eqn:E; [|exfalso; apply (Hx a); [now left|exact E]].
        apply returns_bind with (P := fun vs => length vs = length l).
        - apply IHl. intros x Hl. apply Hx. now right.
        - intros vs n3 E2. apply returns_ret. cbn. now rewrite E2. }
      intros vars n3 Ev. apply returns_bind with (P := fun p => T c1 (fst (fst p)) /\ iterable (snd p)).
      { apply Ht; auto. rewrite Ev. symmetry. apply SK. }
      intros p n4 (Tp & Hp). apply returns_bind with (P := any).
      { now apply returns_extend. }
      intros e n5 _. now apply Skip. }
  eapply returns_weaken; [|now apply G]. intros acc (s & Es & Fs). cbn in Es. now rewrite Es.
Qed.

Lemma check_fits t : forall c, fits c t -> forall n, check_for_sem t n = (Ok tt, n).
Proof.
  induction t as [cat ts form r IH] using ctree_ind. intros c F n. cbn [check_for_sem].
  assert (R : (String.eqb form "" && match m_sem (g_mean r) with None => true | Some _ => false end)%bool = false).
  { inversion F as [? ? ? ? Kc Nf Em|? ? ? ? f v Kc Em Ev Tv|? ? ? ? ? ? Kc SK [(f & Ef & _) _ _] _]; subst.
    - destruct (String.eqb_spec form ""); [contradiction|reflexivity].
    - rewrite Em. apply andb_false_r.
    - rewrite Ef. apply andb_false_r. }
  rewrite R. unfold bind at 1. cbn [ret].
  assert (A : exists conss, fits_all conss ts).
  { inversion F; subst; eauto; exists []; constructor. }
  destruct A as (conss & A). clear F R. revert conss A n.
  induction IH as [|t ts Ht Hts IH2]; intros conss A n; [reflexivity|].
  inversion A as [|c1 cs t' ts' Ft A']; subst. unfold bind. rewrite (Ht c1 Ft). now apply (IH2 cs).
Qed.

(** ** from the parser *)

(** no empty words, no empty rules, and the antecedent is no word *)
Definition plain_rule (r : crule) : Prop :=
  k_type (g_ante r) = PRelation /\ g_cons r <> [] /\ forall c, In c (g_cons r) -> k_type c = PWord -> k_pred c <> "".

Lemma derives_fits re_match (G : crule -> Prop) text : type_ok ->
  (forall r, G r -> well_typed r /\ plain_rule r) ->
  (forall c i j t, derives scanned re_match G text c i j t ->
     (k_type c = PWord -> k_pred c <> "") -> fits c t) /\
  (forall cs i j ts, derives_all scanned re_match G text cs i j ts ->
     (forall c, In c cs -> k_type c = PWord -> k_pred c <> "") -> fits_all cs ts).
Proof.
  intros TY HG. apply derives_both.
  - intros c i w r Tc _ _ (K & Em & _) N. apply fits_word; auto. now rewrite Em.
  - intros c i m w r Tc _ _ Nw (K & Em & _) N.
    eapply fits_regexp; [exact Tc|rewrite Em; reflexivity|reflexivity|now apply (ty_regexp TY)].
  - intros c i j r ts Gr K D IH N. destruct (HG r Gr) as (Fr & Kr & Ne & Hw).
    specialize (IH Hw). destruct ts as [|t ts].
    + exfalso. apply Ne. inversion D. reflexivity.
    + apply fits_node; auto. destruct K as (_ & _ & <-). exact Kr.
  - intros _. constructor.
  - intros c cs i j k t ts _ IH1 _ IH2 N. constructor.
    + apply IH1. apply N. now left.
    + apply IH2. intros c' Hc. apply N. now right.
Qed.
End Typed.
