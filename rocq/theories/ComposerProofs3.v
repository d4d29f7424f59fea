(** * Variables of composed sentences; composing never goes back; composing ends *)

From Coq Require Import ZArith String Ascii List Bool Lia.
From Verif Require Import Py PyFacts Effects EffectsFacts Grammar Earley Composer ComposerSpec ComposerProofs ComposerProofs2.
Import ListNotations.
Local Open Scope string_scope.
Local Open Scope list_scope.
Local Open Scope monad_scope.

(** ** which variables a renamed value has *)

Lemma occurs_rename a v : forall y, occurs y (rename a v) ->
  exists x, occurs x v /\ (a x = Some y \/ a x = None /\ x = y).
Proof.
  assert (L : forall l, Forall (fun v => forall y, occurs y (rename a v) -> exists x, occurs x v /\ (a x = Some y \/ a x = None /\ x = y)) l ->
    forall w y, In w (map (rename a) l) -> occurs y w -> exists u x, In u l /\ occurs x u /\ (a x = Some y \/ a x = None /\ x = y)).
  { intros l Hl w y Hw Hy. apply in_map_iff in Hw as (u & <- & Hu). rewrite Forall_forall in Hl.
    destruct (Hl u Hu y Hy) as (x & Ox & Hx). eauto. }
  induction v using value_ind'; intros y O; cbn in O; try (now inversion O).
  - destruct (a s) as [z|] eqn:E; inversion O; subst; exists s; (split; [constructor|auto]).
  - destruct (a s) as [z|] eqn:E; inversion O.
  - inversion O as [|w l0 Hw Ow|w l0 Hw Ow|w args0 l0 Hw Ow]; subst. destruct (L _ H _ _ Hw Ow) as (u & x & Hu & Ox & Hx). exists x. split; auto. now apply occurs_tuple with u.
  - inversion O as [|w l0 Hw Ow|w l0 Hw Ow|w args0 l0 Hw Ow]; subst. destruct (L _ H _ _ Hw Ow) as (u & x & Hu & Ox & Hx). exists x. split; auto. now apply occurs_list with u.
  - inversion O as [|w l0 Hw Ow|w l0 Hw Ow|w args0 l0 Hw Ow]; subst. destruct (L _ H0 _ _ Hw Ow) as (u & x & Hu & Ox & Hx). exists x. split; auto. now apply occurs_body with u.
Qed.

Lemma rename_occurs a v : forall x, occurs x v -> occurs (match a x with Some y => y | None => x end) (rename a v).
Proof.
  induction v using value_ind'; intros x O; inversion O as [|w l0 Hw Ow|w l0 Hw Ow|w args0 l0 Hw Ow]; subst; cbn.
  - destruct (a s) as [z|]; constructor.
  - rewrite Forall_forall in H. eapply occurs_tuple; [apply in_map; eassumption|]. now apply H.
  - rewrite Forall_forall in H. eapply occurs_list; [apply in_map; eassumption|]. now apply H.
  - rewrite Forall_forall in H0. eapply occurs_body; [apply in_map; eassumption|]. now apply H0.
Qed.

(** ** rules whose functions use no other variables than those of the syntax,
    of the arguments of the atoms and of what they are given *)

Record closed_rule (r : crule) : Prop := {
  c_names : forall y, declared r y -> ~ dollar y;
  c_sem : forall f sems s y, m_sem (g_mean r) = Some f -> f sems = Ok s -> occurs y s ->
    declared r y \/ (argument y s /\ ~ dollar y) \/ exists v, In v sems /\ occurs y v;
  c_exec : forall f sems s g x y, m_sem (g_mean r) = Some f -> f sems = Ok s ->
    m_exec (g_mean r) = Some g -> g sems = Ok x -> occurs y x ->
    declared r y \/ (argument y s /\ ~ dollar y) \/ exists v, In v sems /\ occurs y v;
  c_dialog : forall f sems s d v y, m_sem (g_mean r) = Some f -> f sems = Ok s ->
    dialog_atoms r sems d -> In v d -> occurs y v ->
    declared r y \/ (argument y s /\ ~ dollar y) \/ exists v, In v sems /\ occurs y v
}.
(** the words have no variables *)
Definition closed_leaf (r : crule) : Prop :=
  forall f v y, m_sem (g_mean r) = Some f -> f [] = Ok v -> ~ occurs y v.

Fixpoint closed (t : ctree) : Prop :=
  match t with
  | Node _ [] _ r => closed_leaf r
  | Node _ ts _ r => closed_rule r /\ (fix all l := match l with [] => True | x :: l' => closed x /\ all l' end) ts
  end.

Lemma closed_node cat t ts form r : closed (Node cat (t :: ts) form r) <-> closed_rule r /\ Forall closed (t :: ts).
Proof.
  assert (E : forall l, (fix all (l : list ctree) := match l with [] => True | x :: l' => closed x /\ all l' end) l <-> Forall closed l).
  { induction l as [|x l IH]; [split; auto|]. rewrite IH. split; [intros (A & B); auto|]. inversion 1; auto. }
  change (closed_rule r /\ (fix all (l : list ctree) := match l with [] => True | x :: l' => closed x /\ all l' end) (t :: ts)
          <-> closed_rule r /\ Forall closed (t :: ts)). now rewrite E.
Qed.

Definition all_vars (N : string -> Prop) (v : value) : Prop := forall y, occurs y v -> N y.

Lemma elements_vars N x xs : elements x = Some xs -> all_vars N x -> Forall (all_vars N) xs.
Proof.
  intros E H. apply Forall_forall. intros v Hv y Hy. destruct x; try discriminate; injection E as <-.
  - exfalso. clear H. induction s as [|c s IH]; cbn in Hv; [auto|]. destruct Hv as [<-|Hv]; [inversion Hy|auto].
  - apply H. now apply occurs_tuple with v.
  - apply H. now apply occurs_list with v.
Qed.

(** the last occurrence of an element *)
Lemma last_occurrence (a : string) l : In a l -> exists j, nth_error l j = Some a /\ ~ In a (skipn (S j) l).
Proof.
  induction l as [|b l IH]; [intros []|]. intros H. destruct (in_dec string_dec a l) as [I|NI].
  - destruct (IH I) as (j & E & N). exists (S j). auto.
  - destruct H as [<-|H]; [|tauto]. exists 0. auto.
Qed.

Definition leaf (t : ctree) : Prop := match t with Node _ [] _ _ => True | _ => False end.

Lemma explains_vars t : closed t -> forall sigma (N : string -> Prop) incoming s i x,
  (forall v, N v -> dollar v) ->
  ~ leaf t ->
  explains sigma t incoming (s, i, x) ->
  (forall v, In v incoming -> N v) -> (forall p z v, own sigma t p z v -> N v) ->
  all_vars N s /\ Forall (all_vars N) i /\ all_vars N x.
Proof.
  induction t as [cat ts form r IH] using ctree_ind. intros C sigma N incoming s i x D Nl X Hin Hown.
  destruct ts as [|t0 ts0]; [now destruct Nl|].
  remember (t0 :: ts0) as ts eqn:Ets.
  assert (C' : closed_rule r /\ Forall closed ts) by (subst ts; now apply closed_node in C).
  clear C. destruct C' as (Cr & Cts).
  inversion X as [sigma' cat' ts' form' r' inc' sems infs exe f s0 x0 d XC Ef Es Hx Hd Ha Hk]; subst sigma' cat' ts' form' r' inc' s i x.
  (* the children *)
  assert (Ch : Forall (all_vars N) sems /\ Forall (all_vars N) infs /\ Forall (all_vars N) exe).
  { set (tau0 := fun i q => sigma (i :: q)) in XC.
    assert (Hown' : forall i q t c z v, nth_error ts i = Some t -> nth_error (g_cons r) i = Some c ->
              own (tau0 i) t q z v -> N v).
    { intros i q t c z v Et Ec (r1 & I1 & NI & E). apply (Hown (i :: q) z v). exists r1. split; [|auto].
      eapply inner_child; eauto. }
    assert (Hroot : forall a v, sigma [] a = Some v -> N v).
    { intros a v E. destruct (in_dec string_dec a (k_args (g_ante r))) as [I|NI].
      - destruct (last_occurrence _ _ I) as (j & Ej & NJ). destruct (Ha _ _ Ej NJ) as (w & Ew & Ea).
        assert (w = v) by congruence. subst. apply Hin. now apply nth_error_In in Ew.
      - apply (Hown [] a v). exists r. split; [subst ts; constructor|auto]. }
    clear Ets X Hx Hd Ha Hk Ef Es Hown Nl. revert Hown'.
    clearbody tau0. generalize dependent (g_cons r). generalize dependent tau0.
    generalize dependent (sigma []). revert sems infs exe.
    induction IH as [|t ts Ht Hts IH2]; intros sems infs exe a Hroot tau conss XC Ho;
      inversion XC as [| |? ? ? ? r1 ? c ? ? ? ? Em XC'|? ? ? ? r1 ? c ? f1 v ? ? ? Em Ev XC'|? ? ? t1 ts1 ? r1 ? c ? vars s1 i1 x1 xs ? ? ? Vs Xt Exs XC']; subst; auto.
    - inversion Cts; subst. apply (IH2 H2 _ _ _ a Hroot _ _ XC'). intros i q u c' z v Et Ec. apply (Ho (S i) q u c' z v Et Ec).
    - inversion Cts; subst. destruct (IH2 H2 _ _ _ a Hroot _ _ XC') as (A & B & Cc).
      + intros i q u c' z w Et Ec. apply (Ho (S i) q u c' z w Et Ec).
      + repeat split; auto. constructor; auto. intros y Oy. exfalso. exact (H1 _ _ _ Em Ev Oy).
    - inversion Cts; subst. destruct (IH2 H2 _ _ _ a Hroot _ _ XC') as (A & B & Cc).
      + intros i q u c' z w Et Ec. apply (Ho (S i) q u c' z w Et Ec).
      + destruct (Ht H1 _ N vars s1 i1 x1 D (fun F => F) Xt) as (S1 & I1 & X1).
        * intros v Hv. clear -Vs Hv Hroot. induction Vs as [|b w la lv E Vs' IHv]; [destruct Hv|].
          destruct Hv as [->|Hv]; eauto.
        * intros p z v. apply (Ho 0 p _ c z v); reflexivity.
        * repeat split; auto.
          -- apply Forall_app. auto.
          -- apply Forall_app. split; auto. eapply elements_vars; eauto. }
  destruct Ch as (Cs & Ci & Cx).
  assert (Hroot : forall a v, sigma [] a = Some v -> N v).
  { intros a v E. destruct (in_dec string_dec a (k_args (g_ante r))) as [I|NI].
    - destruct (last_occurrence _ _ I) as (j & Ej & NJ). destruct (Ha _ _ Ej NJ) as (w & Ew & Ea).
      assert (w = v) by congruence. subst. apply Hin. now apply nth_error_In in Ew.
    - apply (Hown [] a v). exists r. split; [subst ts; constructor|auto]. }
  (* a renamed value whose variables are known *)
  assert (Ren : forall w, (forall y, occurs y w -> declared r y \/ (argument y s0 /\ ~ dollar y) \/ N y) ->
                all_vars N (rename (sigma []) w)).
  { intros w Hw y Oy. apply occurs_rename in Oy as (z & Oz & [E|(E & ->)]); [eauto|].
    destruct (Hw _ Oz) as [F|[F|F]]; auto; exfalso; apply (Hk y); auto. }
  assert (Kn : forall y, N y -> sigma [] y = None).
  { intros y Hy. destruct (sigma [] y) eqn:E; auto. exfalso.
    assert (F : sigma [] y <> None) by congruence. apply Hk in F as [F|(_ & F)]; [|now apply F, D].
    eapply c_names; eauto. }
  assert (Given : forall y, (exists v, In v sems /\ occurs y v) -> N y).
  { intros y (v & Hv & Oy). rewrite Forall_forall in Cs. now apply (Cs v Hv). }
  repeat split.
  - apply Ren. intros y Oy. destruct (c_sem _ Cr _ _ _ _ Ef Es Oy) as [F|[F|F]]; auto.
  - apply Forall_forall. intros w Hw. apply in_map_iff in Hw as (u & <- & Hu).
    apply Ren. intros y Oy. apply in_app_iff in Hu as [Hu|Hu].
    + right. right. rewrite Forall_forall in Ci. now apply (Ci u Hu).
    + destruct (c_dialog _ Cr _ _ _ _ _ _ Ef Es Hd Hu Oy) as [F|[F|F]]; auto.
  - apply Ren. intros y Oy. inversion Hx as [E1 E2|g v E1 E2 E3]; subst.
    + inversion Oy; subst. right. right. rewrite Forall_forall in Cx. eapply Cx; eauto.
    + destruct (c_exec _ Cr _ _ _ _ _ _ Ef Es E1 E2 Oy) as [F|[F|F]]; auto.
Qed.

(** ** the counter never goes back *)

Definition ahead {A} (m : M nat A) : Prop := forall n, n <= snd (m n).

Lemma ahead_bind {A B} (m : M nat A) (f : A -> M nat B) : ahead m -> (forall a, ahead (f a)) -> ahead (bind m f).
Proof.
  intros Hm Hf n. specialize (Hm n). unfold bind. destruct (m n) as [[a| |] n1]; cbn in *; auto.
  specialize (Hf a n1). lia.
Qed.
Lemma ahead_ret {A} (a : A) : ahead (ret a).
Proof. intros n. cbn. lia. Qed.
Lemma ahead_throw {A} e : ahead (@throw nat A e).
Proof. intros n. cbn. lia. Qed.
Lemma ahead_next : ahead next.
Proof. intros n. cbn. lia. Qed.
Lemma ahead_call f l : ahead (call f l).
Proof. intros n. cbn. lia. Qed.
Lemma ahead_fold {A B} (f : B -> A -> M nat B) l : (forall b a, ahead (f b a)) -> forall b, ahead (foldM f b l).
Proof. intros Hf. induction l as [|a l IH]; intros b; cbn; [apply ahead_ret|]. apply ahead_bind; auto. Qed.
Lemma ahead_extend l v : ahead (@extend nat l v).
Proof. unfold extend. destruct (elements v); [apply ahead_ret|apply ahead_throw]. Qed.
Lemma ahead_lookup m args : ahead (lookup_all m args).
Proof.
  induction args as [|a args IH]; cbn; [apply ahead_ret|]. destruct (mget a m); [|apply ahead_throw].
  apply ahead_bind; auto. intros. apply ahead_ret.
Qed.
Lemma ahead_next_for {A} (l : list A) : ahead (next_for l).
Proof.
  induction l as [|a l IH]; cbn; [apply ahead_ret|]. apply ahead_bind; [apply ahead_next|]. intros v.
  apply ahead_bind; auto. intros. apply ahead_ret.
Qed.

Lemma ahead_create r incoming : ahead (create_map r incoming).
Proof.
  unfold create_map. apply ahead_bind.
  - generalize (k_args (g_ante r)), (@nil (string * string)). intros l. revert incoming.
    induction l as [|a l IH]; intros incoming m; cbn; [apply ahead_ret|].
    destruct incoming; [apply ahead_throw|auto].
  - intros m. apply ahead_fold. intros m1 c. apply ahead_fold. intros m2 arg. unfold map_argument.
    destruct (mget arg m2); [apply ahead_ret|]. apply ahead_bind; [apply ahead_next|]. intros. apply ahead_ret.
Qed.

Lemma ahead_node r m sems infs exe : ahead (compose_node r m sems infs exe).
Proof.
  unfold compose_node. repeat (apply ahead_bind; [|intros]).
  - unfold call_sem. destruct (m_sem (g_mean r)); [apply ahead_call|apply ahead_throw].
  - destruct (m_exec (g_mean r)); [apply ahead_call|apply ahead_ret].
  - destruct (m_dialog (g_mean r)); [apply ahead_ret|]. apply ahead_bind; [apply ahead_call|]. intros. apply ahead_extend.
  - unfold extend_map_with_semantics. destruct a; try apply ahead_ret.
    apply ahead_fold. intros m1 atom. destruct (elements atom); [|apply ahead_throw].
    apply ahead_fold. intros m2 arg. unfold map_semantic_argument. destruct arg; try apply ahead_ret.
    destruct (mget name m2); [apply ahead_ret|]. destruct (generated name); [apply ahead_ret|].
    apply ahead_bind; [apply ahead_next|]. intros. apply ahead_ret.
  - apply ahead_ret.
Qed.

Lemma ahead_compose t : forall incoming, ahead (compose t incoming).
Proof.
  induction t as [cat ts form r IH] using ctree_ind. intros incoming. rewrite compose_eq.
  apply ahead_bind; [apply ahead_create|]. intros m. apply ahead_bind; [|intros; apply ahead_node].
  assert (L : forall conss sems infs exe, ahead (children_loop m ts conss sems infs exe)); [|apply L].
  induction IH as [|t ts Ht Hts IH2]; intros conss sems infs exe; [apply ahead_ret|].
  destruct conss as [|c conss]; [apply ahead_ret|].
  destruct t as [cat1 ts1 form1 r1]. destruct ts1 as [|t1 ts1].
  - cbn. destruct (m_sem (g_mean r1)) as [f|]; [|apply IH2]. apply ahead_bind; [apply ahead_call|]. intros. apply IH2.
  - cbn [children_loop]. apply ahead_bind; [apply ahead_lookup|]. intros vars.
    apply ahead_bind; [apply Ht|]. intros p. apply ahead_bind; [apply ahead_extend|]. intros e. apply IH2.
Qed.

Lemma ahead_check t : ahead (check_for_sem t).
Proof.
  induction t as [cat ts form r IH] using ctree_ind. cbn [check_for_sem].
  apply ahead_bind.
  - match goal with |- context[if ?b then _ else _] => destruct b end; [apply ahead_throw|apply ahead_ret].
  - intros _. induction IH as [|t ts Ht Hts IH2]; [apply ahead_ret|]. apply ahead_bind; auto.
Qed.

Lemma ahead_process o t : ahead (process o t).
Proof.
  unfold process. apply ahead_bind; [apply ahead_check|]. intros _.
  apply ahead_bind; [destruct t; apply ahead_next_for|]. intros root.
  apply ahead_bind; [apply ahead_compose|]. intros p. apply ahead_bind.
  - destruct o; [|apply ahead_ret]. destruct (fst (fst p)); try apply ahead_throw. intros n. cbn. lia.
  - intros. apply ahead_ret.
Qed.

(** ** the root variables *)
Lemma next_for_result {A} (l : list A) : forall n vs n', next_for l n = (Ok vs, n') ->
  n' = n + length l /\ vs = map var_name (seq (S n) (length l)).
Proof.
  induction l as [|a l IH]; intros n vs n' H; cbn in H.
  - injection H as <- <-. cbn. auto.
  - unfold bind in H. cbn in H. destruct (next_for l (S n)) as [[us| |] n1] eqn:E; try discriminate.
    destruct (IH _ _ _ E) as (-> & ->). injection H as <- <-. cbn. split; [lia|reflexivity].
Qed.

Lemma root_names n k v : In v (map var_name (seq (S n) k)) <-> between n (n + k) v.
Proof.
  rewrite in_map_iff. split.
  - intros (j & <- & Hj). apply in_seq in Hj. exists j. split; auto. lia.
  - intros (j & Hj & ->). exists j. split; auto. apply in_seq. lia.
Qed.

Lemma process_result o t n p n' : process o t n = (Ok p, n') ->
  exists s cat ts form r n1,
    t = Node cat ts form r /\
    p_root_variables p = map var_name (seq (S n) (length (k_args (g_ante r)))) /\
    n1 = n + length (k_args (g_ante r)) /\
    compose t (p_root_variables p) n1 = (Ok (s, p_inferences p, p_executable p), n') /\
    (o = None -> p_iterations p = [("Semantics", s)]) /\
    (forall f, o = Some f -> exists atoms, s = VList atoms /\ f atoms (p_root_variables p) = Ok (p_iterations p)).
Proof.
  unfold process. intros H. apply bind_ok in H as (u & n0 & H0 & H).
  assert (n0 = n).
  { clear H. revert n u n0 H0. induction t as [cat ts form r IH] using ctree_ind. intros n u n0 H. cbn [check_for_sem] in H.
    apply bind_ok in H as (u1 & n1 & H1 & H).
    assert (n1 = n). { destruct (_ && _)%bool in H1; [discriminate|]. now injection H1 as _ <-. }
    subst n1. clear H1. revert u n0 H.
    induction IH as [|t ts Ht Hts IH2]; intros u n0 H; [now injection H as _ <-|].
    apply bind_ok in H as (u2 & n2 & H2 & H). apply Ht in H2 as ->. now apply IH2 in H. }
  subst n0. apply bind_ok in H as (root & n1 & H1 & H). apply bind_ok in H as (q & n2 & H2 & H).
  apply bind_ok in H as (its & n3 & H3 & H). injection H as <- <-. cbn [p_root_variables p_inferences p_executable p_iterations].
  destruct t as [cat ts form r]. apply next_for_result in H1 as (-> & ->).
  destruct q as ((s & i) & x). cbn [fst snd] in *.
  assert (E : n3 = n2 /\ (o = None -> its = [("Semantics", s)]) /\
     (forall f, o = Some f -> exists atoms, s = VList atoms /\ f atoms (map var_name (seq (S n) (length (k_args (g_ante r))))) = Ok its)).
  { destruct o as [f|].
    - destruct s; try discriminate. injection H3 as H3 <-. split; auto. split; [discriminate|].
      intros g E. injection E as <-. eauto.
    - injection H3 as <- <-. split; auto. split; auto. discriminate. }
  destruct E as (-> & E1 & E2).
  exists s, cat, ts, form, r. eexists. repeat match goal with |- _ /\ _ => split end; try reflexivity; auto.
Qed.
