(** * What the composer does: names, maps and meaning *)

From Coq Require Import ZArith String Ascii List Bool Lia.
From Verif Require Import Py PyFacts Effects Grammar Earley Composer ComposerSpec ReprProofs.
Import ListNotations.
Local Open Scope string_scope.
Local Open Scope list_scope.

Section CTreeInd.
  Variable P : ctree -> Prop.
  Hypothesis step : forall cat ts form r, Forall P ts -> P (Node cat ts form r).
  Fixpoint ctree_ind (t : ctree) : P t :=
    match t with
    | Node cat ts form r => step cat ts form r
        ((fix go (l : list ctree) : Forall P l :=
          match l with [] => Forall_nil P | x :: l' => Forall_cons x (ctree_ind x) (go l') end) ts)
    end.
End CTreeInd.

(** ** names *)

Lemma var_name_inj a b : var_name a = var_name b -> a = b.
Proof.
  unfold var_name, prefix. cbn. intros H. injection H as H. apply repr_Z_inj in H. lia.
Qed.

Lemma generated_dollar x : generated x = true <-> dollar x.
Proof.
  unfold generated, prefix, dollar. destruct x as [|c x].
  - cbn. split; [intros E; discriminate E|intros (s & E); discriminate E].
  - cbn [String.prefix]. destruct (ascii_dec "$" c) as [E|N].
    + subst c. split; [eauto|]. intros _. destruct x; reflexivity.
    + split; [intros E; discriminate E|]. intros (s & E). congruence.
Qed.

Lemma var_name_dollar n : dollar (var_name n).
Proof. unfold dollar, var_name, prefix. cbn. eauto. Qed.

Lemma between_mono n n' m m' v : m <= n -> n' <= m' -> between n n' v -> between m m' v.
Proof. intros A B (k & K & ->). exists k. split; auto. lia. Qed.

(** ** growing maps *)

Lemma mget_mset x y v m : mget x (mset y v m) = if String.eqb x y then Some v else mget x m.
Proof. reflexivity. Qed.

(** [m'] is [m] with more keys, whose values are different names with numbers
    after [n] up to [n'] *)
Record grows (m : vmap) (n : nat) (m' : vmap) (n' : nat) : Prop := {
  g_le : n <= n';
  g_keep : forall x v, mget x m = Some v -> mget x m' = Some v;
  g_new : forall x v, mget x m = None -> mget x m' = Some v -> between n n' v;
  g_inj : forall x y v, mget x m = None -> mget y m = None ->
          mget x m' = Some v -> mget y m' = Some v -> x = y
}.

Lemma grows_refl m n : grows m n m n.
Proof. constructor; auto; congruence. Qed.

Lemma grows_trans m n m1 n1 m2 n2 : grows m n m1 n1 -> grows m1 n1 m2 n2 -> grows m n m2 n2.
Proof.
  intros [L1 K1 N1 I1] [L2 K2 N2 I2]. constructor.
  - lia.
  - auto.
  - intros x v E F. destruct (mget x m1) as [w|] eqn:E1.
    + pose proof (K2 _ _ E1) as E2. assert (w = v) by congruence. subst.
      apply (between_mono n n1); auto. apply (N1 x); auto.
    + apply (between_mono n1 n2); auto. apply (N2 x); auto.
  - intros x y v Ex Ey Fx Fy.
    destruct (mget x m1) as [w|] eqn:E1, (mget y m1) as [u|] eqn:E2.
    + pose proof (K2 _ _ E1). pose proof (K2 _ _ E2). apply (I1 x y v); congruence.
    + pose proof (K2 _ _ E1) as E1'. assert (w = v) by congruence. subst.
      destruct (N1 _ _ Ex E1) as (k & Hk & ->). destruct (N2 _ _ E2 Fy) as (k' & Hk' & E').
      apply var_name_inj in E'. lia.
    + pose proof (K2 _ _ E2) as E2'. assert (u = v) by congruence. subst.
      destruct (N1 _ _ Ey E2) as (k & Hk & ->). destruct (N2 _ _ E1 Fx) as (k' & Hk' & E').
      apply var_name_inj in E'. lia.
    + apply (I2 x y v); auto.
Qed.

Lemma grows_later m n m' n' k : n' <= k -> grows m n m' n' -> grows m n m' k.
Proof.
  intros Hk [L K N I]. constructor; auto; try lia.
  intros x v E F. apply (between_mono n n'); auto. eapply N; eauto.
Qed.

Lemma grows_earlier m n m' n' k : k <= n -> grows m n m' n' -> grows m k m' n'.
Proof.
  intros Hk [L K N I]. constructor; auto; try lia.
  intros x v E F. apply (between_mono n n'); auto. eapply N; eauto.
Qed.

Lemma grows_fresh m n x : mget x m = None -> grows m n (mset x (var_name (S n)) m) (S n).
Proof.
  intros E. constructor.
  - lia.
  - intros y v F. rewrite mget_mset. destruct (String.eqb_spec y x); congruence.
  - intros y v F. rewrite mget_mset. destruct (String.eqb y x); [|congruence].
    intros G. injection G as <-. exists (S n). split; [lia|reflexivity].
  - intros y z v F G. rewrite !mget_mset.
    destruct (String.eqb_spec y x), (String.eqb_spec z x); congruence.
Qed.

(** a loop whose steps grow the map, and which adds the wanted keys *)
Lemma fold_grows {A} (f : vmap -> A -> M nat vmap) (wanted : A -> string -> Prop) l :
  (forall a m n m' n', In a l -> f m a n = (Ok m', n') ->
     grows m n m' n' /\ forall x, mget x m' <> None <-> mget x m <> None \/ wanted a x) ->
  forall m n m' n', foldM f m l n = (Ok m', n') ->
  grows m n m' n' /\ forall x, mget x m' <> None <-> mget x m <> None \/ exists a, In a l /\ wanted a x.
Proof.
  induction l as [|a l IH]; intros Hf m n m' n' H; cbn in H.
  - injection H as <- <-. split; [apply grows_refl|]. intros x. split; auto.
    intros [F|(a & [] & _)]; auto.
  - unfold bind in H. destruct (f m a n) as [[m1| |] n1] eqn:E; try discriminate.
    destruct (Hf a m n m1 n1 (or_introl eq_refl) E) as (G1 & K1).
    destruct (IH (fun a m n m' n' Ha => Hf a m n m' n' (or_intror Ha)) _ _ _ _ H) as (G2 & K2).
    split; [eapply grows_trans; eauto|]. intros x. rewrite K2, K1. split.
    + intros [[F|F]|(b & Hb & F)]; auto; right.
      * exists a. split; auto. now left.
      * exists b. split; auto. now right.
    + intros [F|(b & [<-|Hb] & F)]; auto. right. eauto.
Qed.

Lemma map_argument_grows m arg n m' n' : map_argument m arg n = (Ok m', n') ->
  grows m n m' n' /\ forall x, mget x m' <> None <-> mget x m <> None \/ x = arg.
Proof.
  unfold map_argument. destruct (mget arg m) as [v|] eqn:E; cbn; intros H; injection H as <- <-.
  - split; [apply grows_refl|]. intros x. split; auto. intros [F| ->]; congruence.
  - split; [now apply grows_fresh|]. intros x. rewrite mget_mset.
    destruct (String.eqb_spec x arg) as [->|N]; split; intros; try congruence; auto.
    destruct H as [H|H]; congruence.
Qed.

Lemma map_semantic_argument_grows m arg n m' n' : map_semantic_argument m arg n = (Ok m', n') ->
  grows m n m' n' /\ forall x, mget x m' <> None <-> mget x m <> None \/ (arg = VVar x /\ ~ dollar x).
Proof.
  unfold map_semantic_argument.
  assert (Same : forall (P : string -> Prop), (forall x, P x -> mget x m <> None) ->
    forall x, mget x m <> None <-> mget x m <> None \/ P x) by (intros P HP x; specialize (HP x); tauto).
  destruct arg; cbn; intros H;
    try (injection H as <- <-; split; [apply grows_refl|apply Same; intros x (F & _); discriminate]).
  destruct (mget name m) as [v|] eqn:E.
  { injection H as <- <-. split; [apply grows_refl|]. apply Same. intros x (F & _). congruence. }
  destruct (generated name) eqn:G.
  { injection H as <- <-. split; [apply grows_refl|]. apply Same. intros x (F & D). exfalso.
    injection F as ->. now apply D, generated_dollar. }
  injection H as <- <-. split; [now apply grows_fresh|]. intros x. rewrite mget_mset.
  destruct (String.eqb_spec x name) as [->|N].
  - split; [|congruence]. intros _. right. split; auto. intros D. apply generated_dollar in D. congruence.
  - split; auto. intros [F|(F & _)]; congruence.
Qed.

Lemma map_antecedent_result args : forall m incoming n m' n',
  map_antecedent m args incoming n = (Ok m', n') ->
  n' = n /\
  (forall x, mget x m' <> None <-> mget x m <> None \/ In x args) /\
  (forall j a, nth_error args j = Some a -> ~ In a (skipn (S j) args) ->
     exists v, nth_error incoming j = Some v /\ mget a m' = Some v) /\
  (forall x, ~ In x args -> mget x m' = mget x m).
Proof.
  induction args as [|a args IH]; intros m incoming n m' n' H; cbn in H.
  - injection H as <- <-. repeat split; auto.
    + intros [F|[]]; auto.
    + intros j b F. destruct j; discriminate.
  - destruct incoming as [|v incoming]; try discriminate.
    destruct (IH _ _ _ _ _ H) as (-> & K & L & O). split; auto. split; [|split].
    + intros x. rewrite K, mget_mset. cbn. destruct (String.eqb_spec x a) as [->|N].
      * split; auto. left. congruence.
      * split; intros [F|F]; auto. destruct F; [congruence|auto].
    + intros [|j] b E NI; cbn in E.
      * injection E as <-. exists v. split; auto. cbn in NI. rewrite O by auto. rewrite mget_mset.
        now rewrite String.eqb_refl.
      * apply (L j b E). exact NI.
    + intros x NI. cbn in NI. rewrite O by tauto. rewrite mget_mset.
      destruct (String.eqb_spec x a); auto. subst. tauto.
Qed.

Lemma create_map_result r incoming n m n' : create_map r incoming n = (Ok m, n') ->
  n <= n' /\
  (forall x, mget x m <> None <-> declared r x) /\
  (forall j a, nth_error (k_args (g_ante r)) j = Some a -> ~ In a (skipn (S j) (k_args (g_ante r))) ->
     exists v, nth_error incoming j = Some v /\ mget a m = Some v) /\
  exists m0, (forall x, mget x m0 <> None <-> In x (k_args (g_ante r))) /\ grows m0 n m n'.
Proof.
  unfold create_map. unfold bind. destruct (map_antecedent [] (k_args (g_ante r)) incoming n) as [[m0| |] n0] eqn:E; try discriminate.
  intros H. destruct (map_antecedent_result _ _ _ _ _ _ E) as (-> & K & L & _).
  assert (Hf : forall c m1 n1 m2 n2, In c (g_cons r) -> foldM map_argument m1 (k_args c) n1 = (Ok m2, n2) ->
    grows m1 n1 m2 n2 /\ forall x, mget x m2 <> None <-> mget x m1 <> None \/ In x (k_args c)).
  { intros c m1 n1 m2 n2 _ F.
    destruct (fold_grows map_argument (fun arg x => x = arg) (k_args c)
                (fun a m n m' n' _ => map_argument_grows m a n m' n') _ _ _ _ F) as (G & K2).
    split; auto. intros x. rewrite K2. split; intros [A|A]; auto; right.
    - destruct A as (b & Hb & ->). auto.
    - eauto. }
  destruct (fold_grows _ (fun c x => In x (k_args c)) (g_cons r) Hf _ _ _ _ H) as (G & K2).
  assert (K0 : forall x, mget x m0 <> None <-> In x (k_args (g_ante r))).
  { intros x. rewrite K. cbn. split; auto. intros [F|F]; congruence. }
  repeat match goal with |- _ /\ _ => split end.
  - apply G.
  - intros x. rewrite K2, K0. reflexivity.
  - intros j a F NI. destruct (L j a F NI) as (v & Ev & Em). exists v. split; auto. now apply (g_keep _ _ _ _ G).
  - exists m0. auto.
Qed.

Lemma extend_map_result m s n m' n' : extend_map_with_semantics m s n = (Ok m', n') ->
  grows m n m' n' /\ forall x, mget x m' <> None <-> mget x m <> None \/ argument x s /\ ~ dollar x.
Proof.
  unfold extend_map_with_semantics.
  destruct s; intros H;
    try (injection H as <- <-; split; [apply grows_refl|]; intros x; split; auto;
         intros [F|((at' & ar & F & _) & _)]; [auto|discriminate]).
  set (step := fun (m : vmap) (atom : value) => match elements atom with
      | Some args => foldM map_semantic_argument m args | None => throw TypeErr end) in H.
  assert (Hf : forall atom m1 n1 m2 n2, In atom l -> step m1 atom n1 = (Ok m2, n2) ->
    grows m1 n1 m2 n2 /\ forall x, mget x m2 <> None <-> mget x m1 <> None \/
      exists args, elements atom = Some args /\ In (VVar x) args /\ ~ dollar x).
  { intros atom m1 n1 m2 n2 _ F. unfold step in F. destruct (elements atom) as [args|] eqn:E; [|discriminate].
    destruct (fold_grows map_semantic_argument (fun arg x => arg = VVar x /\ ~ dollar x) args
                (fun a m n m' n' _ => map_semantic_argument_grows m a n m' n') _ _ _ _ F) as (G & K).
    split; auto. intros x. rewrite K. split; intros [A|A]; auto; right.
    - destruct A as (b & Hb & -> & D). eauto.
    - destruct A as (b & Eb & Hb & D). injection Eb as <-. exists (VVar x). auto. }
  destruct (fold_grows _ _ l Hf _ _ _ _ H) as (G & K).
  split; auto. intros x. rewrite K. split; intros [A|A]; auto; right.
  - destruct A as (atom & Ha & args & Ea & Hx & D). split; auto. exists l, args. split; auto. split; auto.
    destruct atom; try discriminate; injection Ea as <-; auto.
    exfalso. clear -Hx. induction s as [|c s IH]; cbn in Hx; [auto|]. destruct Hx; [discriminate|auto].
  - destruct A as ((atoms & args & E & Ha & Hx) & D). injection E as <-.
    destruct Ha as [Ha|Ha]; eexists; (split; [exact Ha|]); cbn; eauto.
Qed.

Lemma unify_rename m v : unify_variables m v = rename (fun x => mget x m) v.
Proof.
  induction v using value_ind'; cbn; try reflexivity.
  - f_equal. apply map_ext_in. now apply Forall_forall.
  - f_equal. apply map_ext_in. now apply Forall_forall.
  - f_equal. apply map_ext_in. now apply Forall_forall.
Qed.
