(** * Meanings with private variables

    Types of phrases that say which variables a meaning is about: [T c xs w v]
    holds when the words [w], as a phrase of category [c], may have the meaning
    [v] that speaks about the variables [xs]; all other variables of [v] are
    its own.  If the rules of a grammar
    respect such types when the meanings they combine share no own variables,
    then the sentences have them: the composer keeps the variables apart. *)

From Coq Require Import ZArith String Ascii List Bool Arith Lia FinFun.
From Verif Require Import Py PyFacts Effects EffectsFacts Grammar Earley ParserSpec Composer ComposerSpec
  ComposerProofs ComposerProofs2 ComposerProofs3 ComposerProofs4.
Import ListNotations.
Local Open Scope string_scope.
Local Open Scope list_scope.
Local Open Scope monad_scope.

Section Scoped.
Variable T : string -> list string -> string -> value -> Prop.

(** the value of a constituent, when the variables of the rule are called as
    [a] says *)
Definition child_ok (a : string -> option string) (c : constituent) (w : string) (v : value) : Prop :=
  match k_type c with
  | PRegExp => v = VStr w
  | _ => exists xs, Forall2 (fun x y => a x = Some y) (k_args c) xs /\ T (k_pred c) xs w v
  end.

(** the words of all constituents of a rule, and the values of those that have
    one *)
Inductive phrases (a : string -> option string) : list constituent -> list string -> list value -> Prop :=
| no_phrases : phrases a [] [] []
| phrase_word c cs ws vs : k_type c = PWord -> phrases a cs ws vs -> phrases a (c :: cs) (k_pred c :: ws) vs
| phrase_value c cs w ws v vs : k_type c <> PWord -> child_ok a c w v -> phrases a cs ws vs ->
    phrases a (c :: cs) (w :: ws) (v :: vs).
Definition joined (ws : list string) : string := fold_right append "" ws.

(** what the functions of a rule are given: meanings of the constituents with
    nothing in common but the variables that the rule connects *)
Record scoped_args (a : string -> option string) (cs : list constituent) (ws : list string) (vs : list value) : Prop := {
  sa_inj : forall x y v, a x = Some v -> a y = Some v -> x = y;
  sa_dollar : forall x v, a x = Some v -> dollar v;
  sa_typed : phrases a cs ws vs;
  sa_outer : forall i c v x y, nth_error (filter spoken cs) i = Some c -> nth_error vs i = Some v ->
    occurs y v -> a x = Some y -> In x (k_args c);
  sa_inner : forall i j c v w y, i <> j -> nth_error (filter spoken cs) i = Some c -> nth_error vs i = Some v -> nth_error vs j = Some w ->
    occurs y v -> occurs y w -> exists x, In x (k_args c) /\ a x = Some y;
  sa_names : forall v y, In v vs -> occurs y v -> dollar y
}.

Record well_scoped (r : crule) : Prop := {
  ws_names : forall y, declared r y -> ~ dollar y;
  ws_args : forall c, In c (g_ante r :: g_cons r) -> NoDup (k_args c);
  ws_sem : exists f, m_sem (g_mean r) = Some f /\
    forall a ws vs, (forall x, declared r x -> a x <> None) -> scoped_args a (g_cons r) ws vs ->
      exists s, f vs = Ok s /\ (forall atoms, s = VList atoms -> Forall iterable atoms) /\
        (forall y, occurs y s -> declared r y \/ (argument y s /\ ~ dollar y) \/ exists v, In v vs /\ occurs y v) /\
        forall b xs, (forall y, b y <> None <-> declared r y \/ argument y s /\ ~ dollar y) ->
          scoped_args b (g_cons r) ws vs ->
          Forall2 (fun x y => b x = Some y) (k_args (g_ante r)) xs -> T (k_pred (g_ante r)) xs (joined ws) (rename b s);
  ws_exec : forall g, m_exec (g_mean r) = Some g -> forall a ws vs,
    (forall x, declared r x -> a x <> None) -> scoped_args a (g_cons r) ws vs -> exists v, g vs = Ok v /\ iterable v;
  ws_dialog : forall g, m_dialog (g_mean r) = DCall g -> forall a ws vs,
    (forall x, declared r x -> a x <> None) -> scoped_args a (g_cons r) ws vs -> exists v, g vs = Ok v /\ iterable v
}.

(** trees with such rules *)
Inductive shaped : constituent -> ctree -> Prop :=
| shaped_word c cat r : k_type c = PWord -> k_pred c <> "" -> m_sem (g_mean r) = None -> shaped c (Node cat [] (k_pred c) r)
| shaped_regexp c cat form r f : k_type c = PRegExp -> m_sem (g_mean r) = Some f -> f [] = Ok (VStr form) ->
    shaped c (Node cat [] form r)
| shaped_node c cat t ts form r : k_type c = PRelation -> same_kind (g_ante r) c -> well_scoped r ->
    shaped_all (g_cons r) (t :: ts) -> shaped c (Node cat (t :: ts) form r)
with shaped_all : list constituent -> list ctree -> Prop :=
| shaped_none : shaped_all [] []
| shaped_more c cs t ts : shaped c t -> shaped_all cs ts -> shaped_all (c :: cs) (t :: ts).

Lemma check_shaped t : forall c, shaped c t -> forall n, check_for_sem t n = (Ok tt, n).
Proof.
  induction t as [cat ts form r IH] using ctree_ind. intros c F n. cbn [check_for_sem].
  assert (R : (String.eqb form "" && match m_sem (g_mean r) with None => true | Some _ => false end)%bool = false).
  { inversion F as [? ? ? Kc Nf Em|? ? ? ? f Kc Em Ev|? ? ? ? ? ? Kc SK [_ _ (f & Ef & _) _ _] _]; subst.
    - destruct (String.eqb_spec (k_pred c) ""); [contradiction|reflexivity].
    - rewrite Em. apply andb_false_r.
    - rewrite Ef. apply andb_false_r. }
  rewrite R. unfold bind at 1. cbn [ret].
  assert (A : exists conss, shaped_all conss ts).
  { inversion F; subst; eauto; exists []; constructor. }
  destruct A as (conss & A). clear F R. revert conss A n.
  induction IH as [|t ts Ht Hts IH2]; intros conss A n; [reflexivity|].
  inversion A as [|c1 cs t' ts' Ft A']; subst. unfold bind. rewrite (Ht c1 Ft). now apply (IH2 cs).
Qed.

Lemma fold_right_map {A} (f : A -> string) l : fold_right append "" (map f l) = fold_right (fun x s => append (f x) s) "" l.
Proof. induction l; cbn; congruence. Qed.

(** ** the names of the maps *)

Lemma between_disjoint a b c d v : b <= c -> between a b v -> between c d v -> False.
Proof. intros L (k & K & ->) (k' & K' & E). apply var_name_inj in E. lia. Qed.

Lemma same_length_args c c' : same_kind c c' -> length (k_args c) = length (k_args c').
Proof. intros (_ & E & _). exact E. Qed.

Definition minj (m : vmap) : Prop := forall x y v, mget x m = Some v -> mget y m = Some v -> x = y.

Lemma antecedent_ok args : NoDup args -> forall m incoming n,
  length incoming = length args ->
  exists m', map_antecedent m args incoming n = (Ok m', n) /\
    Forall2 (fun x v => mget x m' = Some v) args incoming /\
    (forall x, ~ In x args -> mget x m' = mget x m).
Proof.
  induction 1 as [|a args NI ND IH]; intros m incoming n L.
  - destruct incoming; [|discriminate]. exists m. split; [reflexivity|]. split; [constructor|reflexivity].
  - destruct incoming as [|v incoming]; [discriminate|]. cbn [map_antecedent].
    destruct (IH (mset a v m) incoming n) as (m' & E & F & K); [now injection L|].
    exists m'. split; [exact E|]. split.
    + constructor; auto. rewrite K by assumption. rewrite mget_mset, String.eqb_refl. reflexivity.
    + intros x Hx. cbn in Hx. rewrite K by tauto. rewrite mget_mset. destruct (String.eqb_spec x a); [subst; tauto|reflexivity].
Qed.

Lemma Forall2_length {A B} (P : A -> B -> Prop) l l' : Forall2 P l l' -> length l = length l'.
Proof. induction 1; cbn; congruence. Qed.
Lemma Forall2_in_l {A B} (P : A -> B -> Prop) l l' x : Forall2 P l l' -> In x l -> exists y, In y l' /\ P x y.
Proof. induction 1 as [|a b l l' H F IH]; [intros []|]. intros [->|Hx]; [exists b|destruct (IH Hx) as (y & Y & Z); exists y]; cbn; auto. Qed.
Lemma Forall2_in_r {A B} (P : A -> B -> Prop) l l' y : Forall2 P l l' -> In y l' -> exists x, In x l /\ P x y.
Proof. induction 1 as [|a b l l' H F IH]; [intros []|]. intros [->|Hx]; [exists a|destruct (IH Hx) as (x & Y & Z); exists x]; cbn; auto. Qed.
Lemma Forall2_nth {A B} (P : A -> B -> Prop) l l' i x y : Forall2 P l l' -> nth_error l i = Some x -> nth_error l' i = Some y -> P x y.
Proof.
  intros F. revert i. induction F as [|a b l l' H F IH]; intros i E E'; destruct i; try discriminate; cbn in *; [congruence|eauto].
Qed.

Lemma create_ok r incoming n :
  NoDup (k_args (g_ante r)) -> NoDup incoming -> length incoming = length (k_args (g_ante r)) ->
  (forall v, In v incoming -> between 0 n v) ->
  exists m n1, create_map r incoming n = (Ok m, n1) /\ n <= n1 /\
    (forall x, mget x m <> None <-> declared r x) /\
    Forall2 (fun x v => mget x m = Some v) (k_args (g_ante r)) incoming /\
    (forall x v, mget x m = Some v -> In v incoming \/ between n n1 v) /\ minj m.
Proof.
  intros NA NI L Hin. destruct (create_returns r incoming n L) as (m & n1 & E & _).
  exists m, n1. split; [exact E|].
  destruct (create_map_result _ _ _ _ _ E) as (Le & K & _).
  unfold create_map, bind in E. destruct (antecedent_ok _ NA [] incoming n L) as (m0 & E0 & F0 & K0).
  rewrite E0 in E.
  assert (Hf : forall c m1 n1 m2 n2, In c (g_cons r) -> foldM map_argument m1 (k_args c) n1 = (Ok m2, n2) ->
    grows m1 n1 m2 n2 /\ forall x, mget x m2 <> None <-> mget x m1 <> None \/ In x (k_args c)).
  { intros c m1 n2 m2 n3 _ F.
    destruct (fold_grows map_argument (fun arg x => x = arg) (k_args c)
                (fun a m n m' n' _ => map_argument_grows m a n m' n') _ _ _ _ F) as (G & K2).
    split; auto. intros x. rewrite K2. split; intros [A|A]; auto; right.
    - destruct A as (b & Hb & ->). auto.
    - eauto. }
  destruct (fold_grows _ (fun c x => In x (k_args c)) (g_cons r) Hf _ _ _ _ E) as (G & _).
  assert (Old : forall x v, mget x m0 = Some v -> In x (k_args (g_ante r)) /\ In v incoming).
  { intros x v Ex. destruct (in_dec string_dec x (k_args (g_ante r))) as [I|NI'].
    - split; auto. destruct (Forall2_in_l _ _ _ _ F0 I) as (w & Hw & Ew). congruence.
    - rewrite (K0 x NI') in Ex. discriminate. }
  assert (Inj0 : forall x y v, mget x m0 = Some v -> mget y m0 = Some v -> x = y).
  { intros x y v Ex Ey. destruct (Old _ _ Ex) as (Ix & _), (Old _ _ Ey) as (Iy & _).
    clear -F0 NI Ex Ey Ix Iy. induction F0 as [|a b l l' Ha F0 IH]; [destruct Ix|].
    inversion NI as [|? ? Nb NI']; subst.
    destruct Ix as [->|Ix], Iy as [->|Iy]; auto.
    - exfalso. assert (b = v) by congruence. subst. destruct (Forall2_in_l _ _ _ _ F0 Iy) as (w & Hw & Ew).
      assert (w = v) by congruence. subst. auto.
    - exfalso. assert (b = v) by congruence. subst. destruct (Forall2_in_l _ _ _ _ F0 Ix) as (w & Hw & Ew).
      assert (w = v) by congruence. subst. auto. }
  split; [exact Le|]. split; [exact K|]. split.
  { clear -F0 G. induction F0; constructor; auto. now apply (g_keep _ _ _ _ G). }
  assert (V : forall x v, mget x m = Some v -> (mget x m0 = Some v /\ In v incoming) \/ (mget x m0 = None /\ between n n1 v)).
  { intros x v Ex. destruct (mget x m0) as [w|] eqn:E1.
    - left. pose proof (g_keep _ _ _ _ G _ _ E1). assert (w = v) by congruence. subst. split; auto. apply (Old x v E1).
    - right. split; auto. apply (g_new _ _ _ _ G x v E1 Ex). }
  split; [intros x v Ex; destruct (V x v Ex) as [(_ & A)|(_ & A)]; auto|].
  intros x y v Ex Ey. destruct (V x v Ex) as [(A & A')|(A & A')], (V y v Ey) as [(B & B')|(B & B')].
  - eapply Inj0; eauto.
  - exfalso. eapply between_disjoint; [apply le_n|apply Hin; exact A'|exact B'].
  - exfalso. eapply between_disjoint; [apply le_n|apply Hin; exact B'|exact A'].
  - apply (g_inj _ _ _ _ G x y v); auto.
Qed.

Lemma lookup_ok m args n : (forall x, In x args -> mget x m <> None) ->
  exists vs, lookup_all m args n = (Ok vs, n) /\ Forall2 (fun x v => mget x m = Some v) args vs.
Proof.
  intros H. induction args as [|a args IH]; [exists []; split; [reflexivity|constructor]|].
  cbn. destruct (mget a m) as [v|] eqn:E; [|exfalso; apply (H a); [now left|exact E]].
  destruct IH as (vs & E1 & F); [intros x Hx; apply H; now right|].
  exists (v :: vs). unfold bind. rewrite E1. split; [reflexivity|]. now constructor.
Qed.

Lemma extend_map_ok m s n : (forall atoms, s = VList atoms -> Forall iterable atoms) ->
  exists m' n', extend_map_with_semantics m s n = (Ok m', n').
Proof.
  intros Hs.
  assert (R : returns (extend_map_with_semantics m s) n any).
  { unfold extend_map_with_semantics. destruct s; try (now apply returns_ret).
    specialize (Hs _ eq_refl). rewrite Forall_forall in Hs.
    apply returns_fold; [|exact I]. intros m1 atom n4 Ha _. destruct (Hs atom Ha) as (e & ->).
    apply returns_fold; [|exact I]. intros m2 arg n5 _ _. unfold map_semantic_argument.
    destruct arg; try (now apply returns_ret). destruct (mget name m2); [now apply returns_ret|].
    destruct (generated name); [now apply returns_ret|]. eexists _, _. split; [reflexivity|exact I]. }
  destruct R as (m' & n' & E & _). eauto.
Qed.

Lemma NoDup_image (m : vmap) args vs : minj m -> NoDup args -> Forall2 (fun x v => mget x m = Some v) args vs -> NoDup vs.
Proof.
  intros I ND F. induction F as [|a v args vs E F IH]; [constructor|]. inversion ND as [|? ? NI ND']; subst.
  constructor; auto. intros Hv. apply NI. destruct (Forall2_in_r _ _ _ _ F Hv) as (x & Hx & Ex).
  now rewrite (I a x v E Ex).
Qed.

(** what one composed phrase is like *)
Definition scoped_result (c : constituent) (incoming : list string) (w : string) (n n' : nat) (p : composed) : Prop :=
  n <= n' /\ T (k_pred c) incoming w (fst (fst p)) /\ iterable (snd p) /\
  forall y, occurs y (fst (fst p)) -> In y incoming \/ between n n' y.

(** the children: their own variables have numbers from disjoint intervals *)
Inductive kids (m : vmap) : nat -> nat -> list constituent -> list string -> list value -> Prop :=
| kids_none n : kids m n n [] [] []
| kids_word n n' c cs ws vs : k_type c = PWord -> kids m n n' cs ws vs -> kids m n n' (c :: cs) (k_pred c :: ws) vs
| kids_more n n1 n' c cs w ws v vs :
    k_type c <> PWord -> n <= n1 -> child_ok (fun x => mget x m) c w v ->
    (forall y, occurs y v -> (exists x, In x (k_args c) /\ mget x m = Some y) \/ between n n1 y) ->
    kids m n1 n' cs ws vs -> kids m n n' (c :: cs) (w :: ws) (v :: vs).

Lemma silent c : k_type c = PWord -> spoken c = false.
Proof. intros E. unfold spoken. now rewrite E. Qed.
Lemma speaking c : k_type c <> PWord -> spoken c = true.
Proof. intros E. unfold spoken. now destruct (k_type c). Qed.
Lemma kids_le m n n' cs ws vs : kids m n n' cs ws vs -> n <= n'.
Proof. induction 1; lia. Qed.
Lemma kids_typed m n n' cs ws vs : kids m n n' cs ws vs -> phrases (fun x => mget x m) cs ws vs.
Proof. induction 1; constructor; auto. Qed.
Lemma phrases_length a cs ws vs : phrases a cs ws vs -> length (filter spoken cs) = length vs.
Proof. induction 1 as [|c cs ws vs K P IH|c cs w ws v vs K C P IH]; cbn; [reflexivity|rewrite silent; auto|]. rewrite speaking by exact K. cbn. congruence. Qed.
Lemma kids_nth m n n' cs ws vs : kids m n n' cs ws vs -> forall i c v y,
  nth_error (filter spoken cs) i = Some c -> nth_error vs i = Some v -> occurs y v ->
  (exists x, In x (k_args c) /\ mget x m = Some y) \/ between n n' y.
Proof.
  induction 1 as [|n n' c1 cs ws vs S K IH|n n1 n' c1 cs w ws v1 vs S L C V K IH]; intros i c0 v0 y Ec Ev O.
  - destruct i; discriminate.
  - cbn in Ec. rewrite silent in Ec by exact S. eauto.
  - cbn in Ec. rewrite speaking in Ec by exact S. pose proof (kids_le _ _ _ _ _ _ K). destruct i; cbn in Ec, Ev.
    + injection Ec as <-. injection Ev as <-. destruct (V y O) as [A|A]; auto. right. eapply between_mono; [| |exact A]; lia.
    + destruct (IH _ _ _ _ Ec Ev O) as [A|A]; auto. right. eapply between_mono; [| |exact A]; lia.
Qed.
Lemma kids_apart m n n' cs ws vs : (forall x v, mget x m = Some v -> between 0 n v) -> kids m n n' cs ws vs ->
  forall i j c v w y, i <> j -> nth_error (filter spoken cs) i = Some c -> nth_error vs i = Some v -> nth_error vs j = Some w ->
    occurs y v -> occurs y w -> exists x, In x (k_args c) /\ mget x m = Some y.
Proof.
  intros Hm K. revert Hm.
  assert (Len : forall n n' cs ws vs, kids m n n' cs ws vs -> length (filter spoken cs) = length vs).
  { intros. eapply phrases_length. eapply kids_typed. eassumption. }
  induction K as [|n n' c0 cs ws vs S K IH|n n1 n' c0 cs w0 ws v0 vs S L C V K IH]; intros Hm i j c v w y Nij Ec Ev Ew Ov Ow.
  - destruct i; discriminate.
  - cbn in Ec. rewrite silent in Ec by exact S. eauto.
  - cbn in Ec. rewrite speaking in Ec by exact S.
    assert (Hm' : forall x v, mget x m = Some v -> between 0 n1 v)
      by (intros x u E; eapply between_mono; [| |apply (Hm x u E)]; lia).
    assert (Far : forall k d u z, nth_error (filter spoken cs) k = Some d -> nth_error vs k = Some u -> occurs z u ->
      between n n1 z -> False).
    { intros k d u z Ed Eu Oz B. destruct (kids_nth _ _ _ _ _ _ K _ _ _ _ Ed Eu Oz) as [(x & _ & Ex)|A].
      - eapply between_disjoint; [apply le_n|apply (Hm x z Ex)|exact B].
      - eapply between_disjoint; [apply le_n|exact B|exact A]. }
    assert (Some_c : forall k u, nth_error vs k = Some u -> exists d, nth_error (filter spoken cs) k = Some d).
    { intros k u Eu. destruct (nth_error (filter spoken cs) k) eqn:E; eauto. apply nth_error_None in E.
      rewrite (Len _ _ _ _ _ K) in E. apply nth_error_None in E. congruence. }
    destruct i, j; cbn in Ec, Ev, Ew; try congruence.
    + injection Ec as <-. injection Ev as <-. destruct (V y Ov) as [A|A]; auto. exfalso.
      destruct (Some_c _ _ Ew) as (d & Ed). eapply Far; eauto.
    + injection Ew as <-. destruct (kids_nth _ _ _ _ _ _ K _ _ _ _ Ec Ev Ov) as [A|A]; auto. exfalso.
      destruct (V y Ow) as [(x & _ & Ex)|B].
      * eapply between_disjoint; [|apply (Hm x y Ex)|exact A]. exact L.
      * eapply between_disjoint; [apply le_n|exact B|exact A].
    + apply (IH Hm' i j c v w y); auto.
Qed.

(** a map that was not changed after the children, or only with new names *)
Lemma kids_scoped m m' n n' n2 cs ws vs :
  (forall x v, mget x m = Some v -> between 0 n v) -> minj m -> kids m n n' cs ws vs -> grows m n' m' n2 ->
  (forall c x, In c cs -> In x (k_args c) -> mget x m <> None) ->
  scoped_args (fun x => mget x m') cs ws vs.
Proof.
  intros Hm Im K G Dc. pose proof (kids_le _ _ _ _ _ _ K) as L.
  assert (Wh : forall x v, mget x m' = Some v -> mget x m = Some v \/ (mget x m = None /\ between n' n2 v)).
  { intros x v E. destruct (mget x m) as [w|] eqn:E1.
    - left. pose proof (g_keep _ _ _ _ G _ _ E1). congruence.
    - right. split; auto. apply (g_new _ _ _ _ G x v E1 E). }
  constructor.
  - intros x y v Ex Ey. destruct (Wh _ _ Ex) as [A|(A & A')], (Wh _ _ Ey) as [B|(B & B')].
    + eapply Im; eauto.
    + exfalso. eapply between_disjoint; [exact L|apply (Hm x v A)|exact B'].
    + exfalso. eapply between_disjoint; [exact L|apply (Hm y v B)|exact A'].
    + apply (g_inj _ _ _ _ G x y v); auto.
  - intros x v E. destruct (Wh _ _ E) as [A|(_ & A)].
    + destruct (Hm _ _ A) as (k & _ & ->). apply var_name_dollar.
    + destruct A as (k & _ & ->). apply var_name_dollar.
  - pose proof (kids_typed _ _ _ _ _ _ K) as F. clear -F G.
    induction F as [|c cs ws vs E P IH|c cs w ws v vs E C P IH]; constructor; auto.
    revert C. unfold child_ok. destruct (k_type c); auto.
    all: intros (xs & X & Y); exists xs; split; auto; clear -X G; induction X; constructor; auto; now apply (g_keep _ _ _ _ G).
  - intros i c v x y Ec Ev O E.
    destruct (kids_nth _ _ _ _ _ _ K _ _ _ _ Ec Ev O) as [(z & Hz & Ez)|A].
    + destruct (Wh _ _ E) as [B|(B & B')].
      * now rewrite (Im x z y B Ez).
      * exfalso. eapply between_disjoint; [exact L|apply (Hm z y Ez)|exact B'].
    + exfalso. destruct (Wh _ _ E) as [B|(B & B')].
      * eapply between_disjoint; [apply le_n|apply (Hm x y B)|exact A].
      * eapply between_disjoint; [apply le_n|exact A|exact B'].
  - intros i j c v w y N Ec Ev Ew Ov Ow. destruct (kids_apart _ _ _ _ _ _ Hm K _ _ _ _ _ _ N Ec Ev Ew Ov Ow) as (x & Hx & Ex).
    exists x. split; auto. now apply (g_keep _ _ _ _ G).
  - intros v y Hv O. apply In_nth_error in Hv as (i & Ev).
    assert (Ec : exists c, nth_error (filter spoken cs) i = Some c).
    { destruct (nth_error (filter spoken cs) i) eqn:E; eauto. apply nth_error_None in E.
      rewrite (phrases_length _ _ _ _ (kids_typed _ _ _ _ _ _ K)) in E. apply nth_error_None in E. congruence. }
    destruct Ec as (c & Ec). destruct (kids_nth _ _ _ _ _ _ K _ _ _ _ Ec Ev O) as [(x & _ & Ex)|(k & _ & ->)].
    + destruct (Hm _ _ Ex) as (k & _ & ->). apply var_name_dollar.
    + apply var_name_dollar.
Qed.

Lemma compose_scoped t : forall c, shaped c t -> ~ leaf t -> forall incoming n,
  length incoming = arity t -> NoDup incoming -> (forall v, In v incoming -> between 0 n v) ->
  exists p n', compose t incoming n = (Ok p, n') /\ scoped_result c incoming (spell t) n n' p.
Proof.
  induction t as [cat ts form r IH] using ctree_ind. intros c F NL incoming n L ND Hin.
  inversion F as [| |c' cat' t0 ts0 form' r' Tc SK Wr Fa]; subst; try (now destruct NL). clear NL F.
  remember (t0 :: ts0) as ts eqn:Ets.
  assert (Sp : spell (Node cat ts form r) = joined (map spell ts)) by (subst ts; unfold joined; cbn [spell]; now rewrite fold_right_map).
  clear Ets.
  destruct Wr as [Wn Wa (f & Ef & Wf) We Wd].
  rewrite compose_eq. unfold arity in L. cbn [rule_of] in L.
  destruct (create_ok r incoming n (Wa _ (or_introl eq_refl)) ND L Hin) as (m & n1 & Em & Le & Dm & Fm & Vm & Im).
  unfold bind at 1. rewrite Em.
  assert (Hm : forall x v, mget x m = Some v -> between 0 n1 v).
  { intros x v E. destruct (Vm x v E) as [A|A]; [apply (between_mono 0 n); auto; lia|eapply between_mono; [| |exact A]; lia]. }
  (* the children *)
  assert (G : forall conss sems infs exe n1, shaped_all conss ts ->
    (forall c x, In c conss -> In x (k_args c) -> mget x m <> None) ->
    (forall c, In c conss -> NoDup (k_args c)) ->
    (forall x v, mget x m = Some v -> between 0 n1 v) ->
    exists s i e n2, children_loop m ts conss sems infs exe n1 = (Ok (sems ++ s, i, e), n2) /\ kids m n1 n2 conss (map spell ts) s).
  { clear Fa Vm Le Em Hm L Hin ND Sp. induction IH as [|t ts Ht Hts IH2]; intros conss sems infs exe k Fa Hc Na Hm;
      inversion Fa as [|c1 cs t' ts' Ft Fa']; subst.
    { exists [], infs, exe, k. rewrite app_nil_r. split; [reflexivity|constructor]. }
    assert (Hc' : forall c x, In c cs -> In x (k_args c) -> mget x m <> None)
      by (intros c' x Hc' Hx; apply (Hc c' x); [now right|exact Hx]).
    assert (Na' : forall c, In c cs -> NoDup (k_args c)) by (intros c' Hc2; apply Na; now right).
    destruct t as [cat1 ts1 form1 r1].
    inversion Ft as [? ? ? Kc Nf Em|? ? ? ? g Kc Em Ev|? ? t1 ts2 ? ? Kc SK1 Wt Fa1]; subst.
    - cbn. rewrite Em. destruct (IH2 cs sems infs exe k Fa' Hc' Na' Hm) as (s & i & e & n2 & E & K).
      exists s, i, e, n2. split; auto. cbn [map spell]. constructor; auto.
    - cbn [children_loop]. rewrite Em. unfold bind, call. rewrite Ev.
      destruct (IH2 cs (sems ++ [VStr form1]) infs exe k Fa' Hc' Na' Hm) as (s & i & e & n2 & E & K).
      exists (VStr form1 :: s), i, e, n2. rewrite <- app_assoc in E. split; [exact E|].
      apply kids_more with (n1 := k); auto.
      + congruence.
      + unfold child_ok. rewrite Kc. reflexivity.
      + intros y O. inversion O.
    - cbn [children_loop].
      destruct (lookup_ok m (k_args c1) k) as (vars & Ev & Fv); [intros x Hx; apply (Hc c1 x); [now left|exact Hx]|].
      unfold bind at 1. rewrite Ev.
      destruct (Ht c1 Ft (fun F => F) vars k) as (p & n2 & Ep & Lp & Tp & Ip & Op).
      + unfold arity. cbn [rule_of]. rewrite <- (Forall2_length _ _ _ Fv). symmetry. now apply same_length_args.
      + eapply NoDup_image; [exact Im|apply Na; now left|exact Fv].
      + intros v Hv. destruct (Forall2_in_r _ _ _ _ Fv Hv) as (x & _ & Ex). eauto.
      + unfold bind at 1. rewrite Ep. destruct Ip as (el & Eel). unfold bind at 1, extend. rewrite Eel. cbn [ret].
        destruct (IH2 cs (sems ++ [fst (fst p)]) (infs ++ snd (fst p)) (exe ++ el) n2 Fa' Hc' Na') as (s & i & e & n3 & E & K).
        { intros x v E. eapply between_mono; [| |apply (Hm x v E)]; lia. }
        exists (fst (fst p) :: s), i, e, n3. rewrite <- app_assoc in E. split; [exact E|].
        apply kids_more with (n1 := n2); auto.
        * congruence.
        * unfold child_ok. rewrite Kc. exists vars. split; auto.
        * intros y O. destruct (Op y O) as [A|A]; auto. left. destruct (Forall2_in_r _ _ _ _ Fv A) as (x & Hx & Ex). eauto. }
  assert (Dc : forall c x, In c (g_cons r) -> In x (k_args c) -> mget x m <> None).
  { intros c1 x Hc Hx. apply Dm. right. eauto. }
  destruct (G (g_cons r) [] [] [] n1 Fa Dc (fun c Hc => Wa c (or_intror Hc)) Hm) as (sems & infs & exe & n2 & Eloop & K).
  unfold bind at 1. rewrite Eloop. cbn [fst snd app]. clear G Eloop.
  pose proof (kids_le _ _ _ _ _ _ K) as L2.
  assert (Sm : scoped_args (fun x => mget x m) (g_cons r) (map spell ts) sems).
  { eapply kids_scoped; [exact Hm|exact Im|exact K|apply grows_refl|exact Dc]. }
  assert (Dm' : forall x, declared r x -> mget x m <> None) by (intros x; apply Dm).
  destruct (Wf _ _ sems Dm' Sm) as (s & Es & Is & Os & Ts).
  unfold compose_node.
  assert (Es' : call_sem r sems n2 = (Ok s, n2)) by (unfold call_sem, call; now rewrite Ef, Es).
  erewrite bind_ok_intro by exact Es'.
  assert (Ex : exists x, (match m_exec (g_mean r) with Some f0 => call f0 sems | None => ret (VList exe) end) n2 = (Ok x, n2) /\ iterable x).
  { destruct (m_exec (g_mean r)) as [g|] eqn:Eg.
    - destruct (We g eq_refl _ _ sems Dm' Sm) as (x & Hx & Hi). exists x. unfold call. rewrite Hx. auto.
    - exists (VList exe). split; [reflexivity|]. eexists; reflexivity. }
  destruct Ex as (x & Ex & Hx). erewrite bind_ok_intro by exact Ex.
  assert (Ed : exists d, (match m_dialog (g_mean r) with
                          | DAtoms l => ret (infs ++ l)
                          | DCall f0 => v <- call f0 sems ;; extend infs v end) n2 = (Ok d, n2)).
  { destruct (m_dialog (g_mean r)) as [l|g] eqn:Eg; [eexists; reflexivity|].
    destruct (Wd g eq_refl _ _ sems Dm' Sm) as (v & Hv & (e & He)). unfold bind, call. rewrite Hv. unfold extend. rewrite He.
    eexists. reflexivity. }
  destruct Ed as (d & Ed). erewrite bind_ok_intro by exact Ed.
  destruct (extend_map_ok m s n2 Is) as (m' & n3 & E3). erewrite bind_ok_intro by exact E3.
  destruct (extend_map_result _ _ _ _ _ E3) as (Gr & Km').
  pose proof (g_le _ _ _ _ Gr) as L3.
  eexists _, n3. split; [reflexivity|]. unfold scoped_result. cbn [fst snd].
  assert (Dom : forall y, mget y m' <> None <-> declared r y \/ argument y s /\ ~ dollar y) by (intros y; now rewrite Km', Dm).
  split; [lia|]. split; [|split].
  - rewrite unify_rename, Sp. destruct SK as (<- & _). apply Ts; auto.
    + eapply kids_scoped; [exact Hm|exact Im|exact K|exact Gr|exact Dc].
    + clear -Fm Gr. induction Fm; constructor; auto. now apply (g_keep _ _ _ _ Gr).
  - now apply iterable_unify.
  - intros y O. rewrite unify_rename in O. apply occurs_rename in O as (z & Oz & [E|(E & ->)]).
    + destruct (mget z m) as [w|] eqn:Ez.
      * pose proof (g_keep _ _ _ _ Gr _ _ Ez). assert (w = y) by congruence. subst.
        destruct (Vm z y Ez) as [A|A]; auto. right. eapply between_mono; [| |exact A]; lia.
      * right. eapply between_mono; [| |apply (g_new _ _ _ _ Gr z y Ez E)]; lia.
    + destruct (Os y Oz) as [A|[A|(v & Hv & Ov)]]; [exfalso; apply (proj2 (Dom y)); auto..|].
      apply In_nth_error in Hv as (i & Ei).
      assert (Ec : exists c, nth_error (filter spoken (g_cons r)) i = Some c).
      { destruct (nth_error (filter spoken (g_cons r)) i) eqn:E'; eauto. apply nth_error_None in E'.
        rewrite (phrases_length _ _ _ _ (kids_typed _ _ _ _ _ _ K)) in E'. apply nth_error_None in E'. congruence. }
      destruct Ec as (c1 & Ec). destruct (kids_nth _ _ _ _ _ _ K _ _ _ _ Ec Ei Ov) as [(z & _ & Ez)|A].
      * destruct (Vm z y Ez) as [B|B]; auto. right. eapply between_mono; [| |exact B]; lia.
      * right. eapply between_mono; [| |exact A]; lia.
Qed.

(** ** whole sentences *)

Lemma process_scoped t c : shaped c t -> ~ leaf t -> forall n,
  exists p n' s, process None t n = (Ok p, n') /\ p_iterations p = [("Semantics", s)] /\
    T (k_pred c) (p_root_variables p) (spell t) s /\ NoDup (p_root_variables p) /\
    length (p_root_variables p) = length (k_args c) /\
    forall y, occurs y s -> between n n' y.
Proof.
  intros F NL n. unfold process, bind. rewrite (check_shaped _ _ F n).
  destruct t as [cat ts form r]. 
  assert (E : exists vs, next_for (k_args (g_ante r)) n = (Ok vs, n + length (k_args (g_ante r))) /\ vs = map var_name (seq (S n) (length (k_args (g_ante r))))).
  { generalize (k_args (g_ante r)). intros l. clear. revert n. induction l as [|a l IH]; intros n.
    - exists []. rewrite Nat.add_0_r. auto.
    - destruct (IH (S n)) as (vs & E & ->). cbn. unfold bind. cbn. rewrite E. eexists. split; [|reflexivity].
      unfold ret. rewrite Nat.add_succ_r. reflexivity. }
  destruct E as (vs & -> & Evs). set (n1 := n + length (k_args (g_ante r))).
  assert (Lv : length vs = length (k_args (g_ante r))) by (subst vs; now rewrite map_length, seq_length).
  destruct (compose_scoped _ _ F NL vs n1) as (p & n' & -> & Le & Tp & _ & Op).
  - exact Lv.
  - subst vs. apply FinFun.Injective_map_NoDup; [|apply seq_NoDup]. intros a b. apply var_name_inj.
  - intros v Hv. subst vs. apply root_names in Hv. eapply between_mono; [| |exact Hv]; unfold n1; lia.
  - eexists _, _, _. split; [reflexivity|]. cbn [p_iterations p_root_variables]. split; [reflexivity|]. split; [exact Tp|].
    assert (SK : same_kind (g_ante r) c) by (inversion F; subst; [now destruct NL|now destruct NL|assumption]).
    split; [subst vs; apply FinFun.Injective_map_NoDup; [|apply seq_NoDup]; intros a b; apply var_name_inj|].
    split; [rewrite Lv; now apply same_length_args|].
    intros y O. destruct (Op y O) as [A|A].
    + subst vs. apply root_names in A. eapply between_mono; [| |exact A]; unfold n1 in *; lia.
    + eapply between_mono; [| |exact A]; unfold n1 in *; lia.
Qed.

(** ** from the parser *)
Lemma derives_shaped re_match (G : crule -> Prop) text :
  (forall r, G r -> well_scoped r /\ plain_rule r) ->
  (forall c i j t, derives scanned re_match G text c i j t ->
     (k_type c = PWord -> k_pred c <> "") -> shaped c t) /\
  (forall cs i j ts, derives_all scanned re_match G text cs i j ts ->
     (forall c, In c cs -> k_type c = PWord -> k_pred c <> "") -> shaped_all cs ts).
Proof.
  intros HG. apply derives_both.
  - intros c i w r Tc _ _ (K & Em & _) N. apply shaped_word; auto. now rewrite Em.
  - intros c i m w r Tc _ _ Nw (K & Em & _) N.
    eapply shaped_regexp; [exact Tc|rewrite Em; reflexivity|reflexivity].
  - intros c i j r ts Gr K D IH N. destruct (HG r Gr) as (Fr & Kr & Ne & Hw).
    specialize (IH Hw). destruct ts as [|t ts].
    + exfalso. apply Ne. inversion D. reflexivity.
    + apply shaped_node; auto. destruct K as (_ & _ & <-). exact Kr.
  - intros _. constructor.
  - intros c cs i j k t ts _ IH1 _ IH2 N. constructor.
    + apply IH1. apply N. now left.
    + apply IH2. intros c' Hc. apply N. now right.
Qed.
End Scoped.
