(** * Properties C40, C41, C90-C92, C97: dialog contexts and generating output *)

From Coq Require Import ZArith String List Bool Arith Lia.
From Verif Require Import Py PyFacts Effects EffectsFacts Solver CoreModule SimpleDataSource Sql SqliteDataSource
  SqliteProofs2 Memory MemoryProofs Grammar Generator ExampleWorld.
Import ListNotations.
Local Open Scope string_scope.
Local Open Scope list_scope.

(** ** C40 *)

(** While the body is solved, the context is active, next to the contexts
    that were; when the body finishes, whatever its answer, the call succeeds
    without bindings and all records of the context are gone.  Nothing else
    changes.  [find_relations ... = [...]]: no other module has a relation
    [with_context]. *)
Theorem C40_context_is_active_during_the_body :
  forall {W} (L : lens W conn) mods n s body b w names,
    lens_ok L ->
    contexts_are L w names ->
    find_relations mods w "with_context" = [memory_relation_with (dialog_insert L) "with_context" ["name"; "body"] (with_context L)] ->
    exists w1, contexts_are L w1 (names ++ [s]) /\ only_contexts L w w1 /\
      (forall r w2 names2,
         solve mods n (VList body) b w1 = (Ok r, w2) -> contexts_are L w2 names2 ->
         exists w3,
           solve mods (S n) (VList [VTuple [VStr "with_context"; VStr s; VList body]]) b w = (Ok (SList [b]), w3) /\
           contexts_are L w3 (filter (fun x => negb (String.eqb x s)) names2) /\ only_contexts L w2 w3) /\
      (forall e w2,
         solve mods n (VList body) b w1 = (Exn e, w2) ->
         solve mods (S n) (VList [VTuple [VStr "with_context"; VStr s; VList body]]) b w = (Exn e, w2)).
Proof.
  intros W L mods n s body b w names HL H Hf.
  destruct (solve_with_context L HL mods n s body b w names H Hf) as (w1 & C1 & O1 & HR).
  exists w1. split; [exact C1|]. split; [exact O1|].
  destruct (solve mods n (VList body) b w1) as [[r|e|] w2].
  - split; [|discriminate]. intros r' w2' names2 [= <- <-] C2. auto.
  - split; [discriminate|]. intros e' w2' [= <- <-]. exact HR.
  - split; discriminate.
Qed.
Print Assumptions C40_context_is_active_during_the_body.

(** [context(s)] is true exactly when the context is active. *)
Theorem C40_context_query :
  forall {W} (L : lens W conn) mods n s b w names,
    lens_ok L ->
    contexts_are L w names ->
    find_relations mods w "context" = [memory_relation (dialog_select L) (dialog_insert L) "context" ["name"]] ->
    exists l, solve mods (S n) (VList [VTuple [VStr "context"; VStr s]]) b w = (Ok (SList l), w) /\
      (In s names -> l = [b]) /\ (~ In s names -> l = []).
Proof.
  intros W L mods n s b w names HL H Hf. eexists. split; [apply (solve_context L HL); eassumption|].
  destruct (existsb (String.eqb s) names) eqn:E.
  - split; auto. intros Hn. exfalso. apply Hn. apply existsb_exists in E as (x & Hx & Ex). apply String.eqb_eq in Ex. now subst.
  - split; auto. intros Hi. exfalso. assert (existsb (String.eqb s) names = true); [|congruence].
    apply existsb_exists. exists s. split; auto. apply String.eqb_refl.
Qed.
Print Assumptions C40_context_query.

(** So: the context that encloses a [with_context] of the same name is gone
    afterwards. *)
Theorem C40_outer_context_is_removed_refuted :
  forall {W} (L : lens W conn) mods n s b w names,
    lens_ok L ->
    contexts_are L w names -> In s names ->
    find_relations mods w "with_context" = [memory_relation_with (dialog_insert L) "with_context" ["name"; "body"] (with_context L)] ->
    exists w3 names3,
      solve mods (S (S n)) (VList [VTuple [VStr "with_context"; VStr s; VList []]]) b w = (Ok (SList [b]), w3) /\
      contexts_are L w3 names3 /\ ~ In s names3.
Proof.
  intros W L mods n s b w names HL H Hi Hf.
  destruct (C40_context_is_active_during_the_body L mods (S n) s [] b w names HL H Hf) as (w1 & C1 & _ & HR & _).
  destruct (HR (SList [b]) w1 (names ++ [s]) eq_refl C1) as (w3 & E & C3 & _).
  exists w3. eexists. split; [exact E|]. split; [exact C3|].
  rewrite filter_In, String.eqb_refl. intros [_ Hn]. discriminate.
Qed.
Print Assumptions C40_outer_context_is_removed_refuted.

(** And when the body raises an exception, the context stays active. *)
Theorem C40_context_stays_after_an_exception_refuted :
  forall {W} (L : lens W conn) mods n s p b w names,
    lens_ok L ->
    contexts_are L w names ->
    find_relations mods w "with_context" = [memory_relation_with (dialog_insert L) "with_context" ["name"; "body"] (with_context L)] ->
    p <> DISJUNCTION -> (forall w', find_relations mods w' p = []) ->
    exists e w3,
      solve mods (S (S n)) (VList [VTuple [VStr "with_context"; VStr s; VList [VTuple [VStr p]]]]) b w = (Exn e, w3) /\
      contexts_are L w3 (names ++ [s]).
Proof.
  intros W L mods n s p b w names HL H Hf Hd Hp.
  destruct (C40_context_is_active_during_the_body L mods (S n) s [VTuple [VStr p]] b w names HL H Hf) as (w1 & C1 & _ & _ & HR).
  eexists _, w1. split; [|exact C1]. apply HR.
  unfold solve. cbn [solver_at sv_solve]. unfold solve_F. cbn [solve_atoms]. unfold solve_single.
  unfold bind at 1. cbn [atom_parts ret]. destruct (String.eqb_spec p DISJUNCTION); [contradiction|].
  unfold solve_relation, find_relation_values. unfold bind at 1 2. cbn [get]. rewrite Hp. reflexivity.
Qed.
Print Assumptions C40_context_stays_after_an_exception_refuted.

Definition ex_conn : lens conn conn := mkLens (fun s => s) (fun s _ => s).
Definition ex_dialog : list (modul conn) := [core_module; dialog_context ex_conn].
Definition ex_c0 : conn := snd (dialog_clear ex_conn (mkConn [] [])).
Definition with_ (s : string) (body : list value) : value := VTuple [VStr "with_context"; VStr s; VList body].
Definition context_ (s : string) : value := VTuple [VStr "context"; VStr s].
Definition not_ (a : value) : value := VTuple [VStr "not"; VList [a]].
Example C40_example :
  lens_ok ex_conn /\ contexts_are ex_conn ex_c0 [] /\
  find_relations ex_dialog ex_c0 "with_context" = [memory_relation_with (dialog_insert ex_conn) "with_context" ["name"; "body"] (with_context ex_conn)] /\
  (** the body stores a fact when the context is active *)
  (let '(o, c) := solve ex_dialog 5 (VList [with_ "quest" [context_ "quest"; VTuple [VStr "store"; VList [VTuple [VStr "dialog_isa"; VStr "e1"; VStr "man"]]]];
                                            not_ (context_ "quest")]) [] ex_c0 in
   o = Ok (SList [[]]) /\ contexts_are ex_conn c [] /\
   db_get "dialog_isa" (current c) = Some (mkTbl ["entity"; "type"] [] [[VStr "e1"; VStr "man"]])) /\
  (** nested contexts with the same name *)
  fst (solve ex_dialog 5 (VList [with_ "a" [with_ "a" []; not_ (context_ "a"); VTuple [VStr "no_such"]]]) [] ex_c0)
    = Exn (Raise "No relation called 'no_such' available in the model").
Proof.
  split; [split; reflexivity|]. split; [reflexivity|]. split; [reflexivity|]. split; [|reflexivity].
  vm_compute. repeat split.
Qed.

(** ** C97 *)

(** what happens to contexts in a dialog *)
Inductive context_op : Type := Start (s : string) | End_ (s : string) | Clear.

(** [s] is active after a history: it was started, and since then not ended
    or cleared *)
Inductive active (s : string) : list context_op -> Prop :=
| active_start h : active s (h ++ [Start s])
| active_later h o : active s h -> o <> End_ s -> o <> Clear -> active s (h ++ [o]).

(** the modules hold one dialog context, and no other relations of these names *)
Definition one_dialog {W} (L : lens W conn) (mods : list (modul W)) : Prop :=
  forall w p r, In r (dialog_relations L) -> r_pred r = p -> find_relations mods w p = [r].

(** every step succeeds *)
Inductive context_history {W} (L : lens W conn) (mods : list (modul W)) (n : nat) (b : binding)
  : list context_op -> W -> W -> Prop :=
| ch_nil w : context_history L mods n b [] w w
| ch_start h s w w1 w2 :
    solve mods (S n) (VList [VTuple [VStr "start_context"; VStr s]]) b w = (Ok (SList [b]), w1) ->
    context_history L mods n b h w1 w2 -> context_history L mods n b (Start s :: h) w w2
| ch_end h s w w1 w2 :
    solve mods (S n) (VList [VTuple [VStr "end_context"; VStr s]]) b w = (Ok (SList [b]), w1) ->
    context_history L mods n b h w1 w2 -> context_history L mods n b (End_ s :: h) w w2
| ch_clear h w w1 w2 :
    dialog_clear L w = (Ok tt, w1) ->
    context_history L mods n b h w1 w2 -> context_history L mods n b (Clear :: h) w w2.

Lemma active_snoc s h o : active s (h ++ [o]) <-> o = Start s \/ (active s h /\ o <> End_ s /\ o <> Clear).
Proof.
  split.
  - intros H. inversion H as [h' E|h' o' Ha H1 H2 E]; apply app_inj_tail in E as [-> ->]; auto.
  - intros [-> | (H1 & H2 & H3)]; [apply active_start|now apply active_later].
Qed.

Lemma contexts_history {W} (L : lens W conn) mods n b : lens_ok L -> one_dialog L mods ->
  forall h h0 w names, contexts_are L w names -> (forall s, In s names <-> active s h0) ->
    exists w' names', context_history L mods n b h w w' /\ contexts_are L w' names' /\
      forall s, In s names' <-> active s (h0 ++ h).
Proof.
  intros HL Hd. induction h as [|o h IH]; intros h0 w names Hw Hn.
  - exists w, names. split; [constructor|]. split; auto. now rewrite app_nil_r.
  - assert (G : forall w1 names1, contexts_are L w1 names1 -> (forall s, In s names1 <-> active s (h0 ++ [o])) ->
      (forall w2, context_history L mods n b h w1 w2 -> context_history L mods n b (o :: h) w w2) ->
      exists w' names', context_history L mods n b (o :: h) w w' /\ contexts_are L w' names' /\
        forall s, In s names' <-> active s (h0 ++ o :: h)).
    { intros w1 names1 C1 H1 Hs. destruct (IH (h0 ++ [o]) w1 names1 C1 H1) as (w2 & names2 & HH & C2 & H2).
      exists w2, names2. split; auto. split; auto. rewrite <- app_assoc in H2. exact H2. }
    destruct o as [s|s|].
    + destruct (solve_start_context L HL mods n s b w names Hw) as (w1 & E & C1 & _).
      { apply Hd; [|reflexivity]. cbn. tauto. }
      apply (G w1 (names ++ [s]) C1).
      * intros s'. rewrite in_app_iff, Hn, active_snoc. split.
        -- intros [H|[->|[]]]; [right; repeat split; auto; discriminate|now left].
        -- intros [[= ->]|(H & _)]; [right; now left|now left].
      * intros w2. now apply ch_start.
    + destruct (solve_end_context L HL mods n s b w names Hw) as (w1 & E & C1 & _).
      { apply Hd; [|reflexivity]. cbn. tauto. }
      apply (G w1 _ C1).
      * intros s'. rewrite filter_In, Hn, active_snoc. split.
        -- intros [H Hne]. right. split; auto. split; [|discriminate]. intros [= ->]. now rewrite String.eqb_refl in Hne.
        -- intros [[=]|(H & Hne & _)]. split; auto. destruct (String.eqb_spec s' s); auto. congruence.
      * intros w2. now apply ch_end.
    + destruct (clear_contexts L HL w) as (w1 & E & C1 & _).
      apply (G w1 [] C1).
      * intros s'. rewrite active_snoc. split; [intros []|]. intros [[=]|(_ & _ & Hne)]. congruence.
      * intros w2. now apply ch_clear.
Qed.

(** After any history, every step of which succeeds, [context(s)] is true
    exactly when the context is active. *)
Theorem C97_contexts_last_until_they_are_ended :
  forall {W} (L : lens W conn) mods n b w0 h,
    lens_ok L -> one_dialog L mods ->
    exists w, context_history L mods n b (Clear :: h) w0 w /\
      forall s, exists l, solve mods (S n) (VList [VTuple [VStr "context"; VStr s]]) b w = (Ok (SList l), w) /\
        (active s h -> l = [b]) /\ (~ active s h -> l = []).
Proof.
  intros W L mods n b w0 h HL Hd. destruct (clear_contexts L HL w0) as (w1 & E & C1 & _).
  destruct (contexts_history L mods n b HL Hd h [] w1 [] C1) as (w & names & HH & C & Hn).
  { intros s. split; [intros []|]. intros H. inversion H; destruct h0; discriminate. }
  exists w. split; [eapply ch_clear; eauto|]. intros s.
  destruct (C40_context_query L mods n s b w names HL C) as (l & H1 & H2 & H3).
  { apply Hd; [|reflexivity]. cbn. tauto. }
  exists l. split; auto. rewrite <- (Hn s). split; auto.
Qed.
Print Assumptions C97_contexts_last_until_they_are_ended.

(** Clearing also removes the stored types of entities. *)
Theorem C97_clear_removes_entity_types :
  forall {W} (L : lens W conn) mods n e t b w,
    lens_ok L -> one_dialog L mods -> forallb storable (db_values b [e; t]) = true ->
    exists w', dialog_clear L w = (Ok tt, w') /\
      solve mods (S n) (VList [VTuple [VStr "dialog_isa"; e; t]]) b w' = (Ok (SList []), w').
Proof.
  intros W L mods n e t b w HL Hd Hs. destruct (clear_contexts L HL w) as (w1 & E & _ & C1).
  exists w1. split; auto. apply (solve_no_isa L HL); auto. apply Hd; [|reflexivity]. cbn. tauto.
Qed.
Print Assumptions C97_clear_removes_entity_types.

Example C97_example :
  one_dialog ex_conn ex_dialog /\
  active "quest" [Start "quest"; Start "a"; End_ "a"] /\ ~ active "a" [Start "quest"; Start "a"; End_ "a"] /\
  forallb storable (db_values [("T", VStr "man")] [VVar "E"; VVar "T"]) = true.
Proof.
  split; [|split; [|split]].
  - intros w p r Hr <-. cbn in Hr. repeat (destruct Hr as [<-|Hr]; [reflexivity|]). destruct Hr.
  - apply (active_later "quest" [Start "quest"; Start "a"]); try discriminate.
    apply (active_later "quest" [Start "quest"]); try discriminate. apply (active_start "quest" []).
  - intros H. apply (active_snoc "a" [Start "quest"; Start "a"]) in H as [[=]|(_ & H & _)]. congruence.
  - reflexivity.
Qed.

(** ** C41 *)
Section C41.
  Context {W : Type}.
  Variable grammar : gindex (@wmean W).
  Variable slv : value -> binding -> M W sres.
  Variable L : lens W sds_store.

  (** the conditions and functions of the grammar do not write to the buffer *)
  Definition leaves_buffer {A} (m : M W A) : Prop := forall w, lget L (snd (m w)) = lget L w.
  Definition quiet_grammar : Prop :=
    (forall v b, leaves_buffer (slv v b)) /\
    (forall c n r, In r (find_rules grammar c n) ->
       (forall f vs, w_format (g_mean r) = Some f -> leaves_buffer (f vs)) /\
       (forall f v, w_post (g_mean r) = Some f -> leaves_buffer (f v))).

  Lemma leaves_bind {A B} (m : M W A) (f : A -> M W B) :
    leaves_buffer m -> (forall a, leaves_buffer (f a)) -> leaves_buffer (bind m f).
  Proof.
    intros Hm Hf w. unfold bind. specialize (Hm w). destruct (m w) as [[a|e|] w1]; simpl in *; auto.
    rewrite Hf. exact Hm.
  Qed.
  Lemma leaves_ret {A} (a : A) : leaves_buffer (ret a).
  Proof. intros w. reflexivity. Qed.
  Lemma leaves_throw {A} e : leaves_buffer (@throw W A e).
  Proof. intros w. reflexivity. Qed.

  Lemma leaves_find_rule used values rules : quiet_grammar -> forall res b found,
    leaves_buffer (find_rule_loop slv used values rules res b found).
  Proof.
    intros [Hs _]. induction rules as [|r rules IH]; intros res b found; simpl; [apply leaves_ret|].
    apply leaves_bind.
    - destruct (no_condition (w_if (g_mean r))); [apply leaves_ret|].
      apply leaves_bind; [apply Hs|]. intros [[|b1 l]|? [|k]]; first [apply leaves_ret|apply leaves_throw].
    - intros [[res' b'] found']. destruct (found' && negb (hash_in (g_hash r) used)); [apply leaves_ret|apply IH].
  Qed.

  (** the rule that is found is one of the rules *)
  Lemma found_rule used values rules : forall res b found w res' b' found' w',
    find_rule_loop slv used values rules res b found w = (Ok (res', b', found'), w') ->
    res' = res \/ exists r, res' = Some r /\ In r rules.
  Proof.
    induction rules as [|r rules IH]; intros res b found w res' b' found' w' H; simpl in H.
    - inversion H. auto.
    - apply bind_ok in H as ([[res1 b1] found1] & w1 & Hst & H).
      assert (H1 : res1 = res \/ res1 = Some r).
      { destruct (no_condition (w_if (g_mean r))); [inversion Hst; auto|].
        apply bind_ok in Hst as (s & w2 & _ & Hst). destruct s as [[|b2 l]|? [|k]]; inversion Hst; auto. }
      destruct (found1 && negb (hash_in (g_hash r) used)).
      + inversion H; subst. destruct H1 as [-> | ->]; [auto|]. right. exists r. split; [auto|left; auto].
      + apply IH in H as [->|(q & -> & Hq)].
        * destruct H1 as [-> | ->]; [auto|]. right. exists r. split; [auto|left; auto].
        * right. exists q. split; auto. right; auto.
  Qed.

  Lemma leaves_node : quiet_grammar -> forall n used c vs o, leaves_buffer (generate_node grammar slv n used c vs o).
  Proof.
    intros HQ. induction n as [|n IH]; intros used c vs o; [intros w; reflexivity|].
    cbn [generate_node]. unfold generate_node_F. intros w. unfold bind at 1.
    pose proof (leaves_find_rule used vs (find_rules grammar c (length vs)) HQ None [] false w) as H1.
    fold (find_rule grammar slv used c vs) in H1 |- *.
    destruct (find_rule grammar slv used c vs w) as [[[[rule b] found]|e|] w1] eqn:Ef; [|exact H1|exact H1].
    simpl in H1. rewrite <- H1. clear H1.
    assert (Hr : forall r, rule = Some r -> In r (find_rules grammar c (length vs))).
    { intros r ->. apply found_rule in Ef as [Ef|(q & [= ->] & Hq)]; [discriminate|exact Hq]. }
    clear Ef. revert w1.
    change (leaves_buffer (bind (if found : bool then
               match rule with
               | Some r => consequents_loop (generate_node grammar slv n) r b (used ++ [g_hash r]) (g_cons r) []
               | None => throw AttributeErr
               end
             else if o then ret ([], used)
             else throw (Raise "No rule found")) (fun wu => let '(words, used') := wu in
      let result := combine_words words in
      match rule with
      | Some r =>
          match w_post (g_mean r) with
          | Some f => bind (f result) (fun v => ret (v, used'))
          | None => ret (result, used')
          end
      | None => ret (result, used')
      end))).
    apply leaves_bind.
    - destruct found.
      + destruct rule as [r|]; [|apply leaves_throw]. destruct HQ as [_ HQ].
        destruct (HQ _ _ _ (Hr r eq_refl)) as [Hfmt _].
        generalize (used ++ [g_hash r]). generalize (@nil value).
        induction (g_cons r) as [|k ks IHk]; intros ws us; cbn [consequents_loop]; [apply leaves_ret|].
        apply leaves_bind; [|intros a; apply IHk].
        unfold single_consequent. destruct (k_type k); try apply leaves_ret;
          (destruct (String.eqb (k_pred k) "value"); [destruct (consequent_values k b); first [apply leaves_ret|apply leaves_throw]|];
           destruct (String.eqb (k_pred k) "text"); [destruct (consequent_values k b); first [apply leaves_ret|apply leaves_throw]|];
           destruct (String.eqb (k_pred k) "format"); [|apply IH];
           destruct (w_format (g_mean r)) as [f|] eqn:Ew; [|apply leaves_throw];
           apply leaves_bind; [apply (Hfmt f _ eq_refl)|intros; apply leaves_ret]).
      + destruct o; [apply leaves_ret|apply leaves_throw].
    - intros [words used']. destruct rule as [r|]; [|apply leaves_ret].
      destruct (w_post (g_mean r)) as [f|] eqn:Ew; [|apply leaves_ret].
      destruct HQ as [_ HQ]. destruct (HQ _ _ _ (Hr r eq_refl)) as [_ Hpost].
      apply leaves_bind; [apply (Hpost f _ Ew)|intros; apply leaves_ret].
  Qed.
End C41.

(** Whatever the grammar does: after a successful [read_output] the buffer
    is empty: no query finds a record. *)
Theorem C41_output_is_consumed :
  forall {W} (grammar : gindex (@wmean W)) slv (L : lens W sds_store) n w v w',
    lens_ok L ->
    generate_output grammar slv L n w = (Ok v, w') ->
    forall t columns values, buffer_select L t columns values w' = (Ok [], w').
Proof.
  intros W grammar slv L n w v w' HL H t columns values. unfold generate_output in H.
  apply bind_ok in H as (vu & w1 & _ & H). apply bind_ok in H as (u & w2 & H2 & H).
  inversion H; subst. unfold buffer_clear, bind in H2. cbn in H2. inversion H2; subst.
  unfold buffer_select, bind. cbn. unfold sds_select. rewrite (lens_get_set _ HL). reflexivity.
Qed.
Print Assumptions C41_output_is_consumed.

(** When generating fails, everything in the buffer is still there. *)
Theorem C41_buffer_is_kept_when_generation_raises :
  forall {W} (grammar : gindex (@wmean W)) slv (L : lens W sds_store) n w e w',
    quiet_grammar grammar slv L ->
    generate_output grammar slv L n w = (Exn e, w') ->
    lget L w' = lget L w.
Proof.
  intros W grammar slv L n w e w' HQ H. unfold generate_output in H.
  pose proof (leaves_node grammar slv L HQ n [] "s" [] false w) as HN.
  unfold bind at 1 in H. destruct (generate_node grammar slv n [] "s" [] false w) as [[vu|e1|] w1].
  - unfold bind, buffer_clear in H. cbn in H. discriminate.
  - inversion H; subst. exact HN.
  - discriminate.
Qed.
Print Assumptions C41_buffer_is_kept_when_generation_raises.

(** ** C90, C91 *)

(** the variables of the antecedent with their values; a repeated variable
    has the last value *)
Definition argument_binding {W} (r : grule (@wmean W)) (values : list value) : binding :=
  fold_left (fun b xv => bset (fst xv) (snd xv) b) (combine (k_args (g_ante r)) values) [].

Section Choose.
  Context {W : Type}.
  Variable slv : value -> binding -> M W sres.
  Notation wrule := (grule (@wmean W)).

  Definition unconditional (r : wrule) : Prop := w_if (g_mean r) = VNone \/ w_if (g_mean r) = VList [].

  (** the condition of [r] has no solutions *)
  Definition does_not_match (values : list value) (w : W) (r : wrule) : Prop :=
    ~ unconditional r /\ slv (w_if (g_mean r)) (argument_binding r values) w = (Ok (SList []), w).
  (** [r] has no condition, or [b1] is the first solution *)
  Definition matches (values : list value) (w : W) (r : wrule) (b1 : binding) (w1 : W) : Prop :=
    (unconditional r /\ b1 = argument_binding r values /\ w1 = w) \/
    (~ unconditional r /\ exists more, slv (w_if (g_mean r)) (argument_binding r values) w = (Ok (SList (b1 :: more)), w1)).

  Definition used_before (used : list (list chash)) (r : wrule) : Prop := In (g_hash r) used.

  Lemma ptype_eqb_eq a b : ptype_eqb a b = true <-> a = b.
  Proof. destruct a, b; simpl; split; congruence. Qed.
  Lemma hash_eqb_eq a : forall b, hash_eqb a b = true <-> a = b.
  Proof.
    induction a as [|[x [y t]] a IH]; intros [|[x' [y' t']] b]; simpl.
    - split; auto.
    - split; discriminate.
    - split; discriminate.
    - unfold chash_eqb, strings_eqb. simpl. rewrite andb_true_iff, IH, !andb_true_iff, String.eqb_eq, ptype_eqb_eq.
      destruct (list_eq_dec string_dec x x'); split.
      + intros (((_ & ->) & ->) & ->). now subst.
      + intros [= -> -> -> ->]. auto.
      + intros (((? & _) & _) & _). discriminate.
      + intros [= -> -> -> ->]. contradiction.
  Qed.
  Lemma hash_in_iff h used : hash_in h used = true <-> In h used.
  Proof.
    unfold hash_in. rewrite existsb_exists. split.
    - intros (x & Hx & E). apply hash_eqb_eq in E. now subst.
    - intros H. exists h. split; auto. now apply hash_eqb_eq.
  Qed.

  Lemma condition_cases (r : wrule) : (no_condition (w_if (g_mean r)) = true /\ unconditional r) \/
    (no_condition (w_if (g_mean r)) = false /\ ~ unconditional r).
  Proof.
    unfold unconditional. destruct (w_if (g_mean r)) as [| | | | | | | |[|]|]; simpl; auto; right; split; auto; intros [H|H]; discriminate.
  Qed.

  Lemma init_ok (r : wrule) values : init_binding (k_args (g_ante r)) values [] = argument_binding r values.
  Proof.
    unfold argument_binding. generalize (@nil (string * value)). revert values.
    induction (k_args (g_ante r)) as [|x xs IH]; intros [|v values] b; simpl; auto.
  Qed.

  Lemma skip_unmatched used values w : forall pre rest b,
    Forall (does_not_match values w) pre ->
    exists b', find_rule_loop slv used values (pre ++ rest) None b false w =
               find_rule_loop slv used values rest None b' false w.
  Proof.
    induction pre as [|r pre IH]; intros rest b H; [exists b; reflexivity|].
    inversion H as [|? ? [Hc Hs] H']; subst. cbn [app find_rule_loop].
    destruct (condition_cases r) as [[_ Hu]|[E _]]; [contradiction|]. rewrite E.
    unfold bind. rewrite init_ok, Hs. cbn. apply IH. exact H'.
  Qed.

  Lemma match_step used values w r post res b found b1 w1 :
    matches values w r b1 w1 ->
    find_rule_loop slv used values (r :: post) res b found w =
    (if hash_in (g_hash r) used then find_rule_loop slv used values post (Some r) b1 true w1
     else (Ok (Some r, b1, true), w1)).
  Proof.
    intros Hm. cbn [find_rule_loop]. rewrite init_ok. destruct (condition_cases r) as [[E Hc]|[E Hc]]; rewrite E.
    - destruct Hm as [(_ & -> & ->)|(Hn & _)]; [|contradiction].
      unfold bind. cbn. destruct (hash_in (g_hash r) used); reflexivity.
    - destruct Hm as [(Hn & _)|(_ & more & Es)]; [contradiction|].
      unfold bind at 1. unfold bind at 1. rewrite Es. cbn. destruct (hash_in (g_hash r) used); reflexivity.
  Qed.
End Choose.

(** The rules of the category that do not match are skipped; the first that
    does and was not used before is taken, with the first solution of its
    condition. *)
Theorem C90_first_matching_unused_rule :
  forall {W} (grammar : gindex (@wmean W)) slv used cat values pre r post w b1 w1,
    find_rules grammar cat (length values) = pre ++ r :: post ->
    Forall (does_not_match slv values w) pre ->
    matches slv values w r b1 w1 ->
    ~ used_before used r ->
    find_rule grammar slv used cat values w = (Ok (Some r, b1, true), w1).
Proof.
  intros W grammar slv used cat values pre r post w b1 w1 Hr Hpre Hm Hu.
  unfold find_rule. rewrite Hr.
  destruct (skip_unmatched slv used values w pre (r :: post) [] Hpre) as (b' & ->).
  rewrite (match_step _ _ _ _ _ _ _ _ _ _ _ Hm).
  destruct (hash_in (g_hash r) used) eqn:E; auto. apply hash_in_iff in E. contradiction.
Qed.
Print Assumptions C90_first_matching_unused_rule.

(** No rule matches: an error for a normal consequent, the empty text for an
    optional one. *)
Theorem C90_no_matching_rule :
  forall {W} (grammar : gindex (@wmean W)) slv n used cat values optional w,
    Forall (does_not_match slv values w) (find_rules grammar cat (length values)) ->
    generate_node grammar slv (S n) used cat values optional w =
    (if optional then Ok (VStr "", used) else Exn (Raise "No rule found"), w).
Proof.
  intros W grammar slv n used cat values optional w H.
  cbn [generate_node]. unfold generate_node_F, bind at 1, find_rule.
  destruct (skip_unmatched slv used values w _ [] [] H) as (b' & E). rewrite app_nil_r in E. rewrite E.
  cbn. destruct optional; reflexivity.
Qed.
Print Assumptions C90_no_matching_rule.

(** A rule that matches but was used before is not skipped for good: when no
    later rule that matches is unused it is chosen again. *)
Theorem C91_used_rule_with_the_binding_of_another_rule_refuted :
  forall {W} (grammar : gindex (@wmean W)) slv used cat values pre r q post w b1,
    find_rules grammar cat (length values) = pre ++ r :: q :: post ->
    Forall (does_not_match slv values w) pre ->
    matches slv values w r b1 w -> used_before used r ->
    does_not_match slv values w q -> ~ used_before used q ->
    find_rule grammar slv used cat values w = (Ok (Some r, argument_binding q values, true), w).
Proof.
  intros W grammar slv used cat values pre r q post w b1 Hr Hpre Hm Hu [Hqc Hq] Hqu.
  unfold find_rule. rewrite Hr.
  destruct (skip_unmatched slv used values w pre (r :: q :: post) [] Hpre) as (b' & ->).
  rewrite (match_step _ _ _ _ _ _ _ _ _ _ _ Hm). apply hash_in_iff in Hu. rewrite Hu.
  cbn [find_rule_loop]. destruct (condition_cases q) as [[_ Hc]|[E _]]; [contradiction|]. rewrite E.
  unfold bind. rewrite init_ok, Hq. cbn.
  destruct (hash_in (g_hash q) used) eqn:Eq; [apply hash_in_iff in Eq; contradiction|reflexivity].
Qed.
Print Assumptions C91_used_rule_with_the_binding_of_another_rule_refuted.

(** The last rule that matches is chosen again when all are used. *)
Theorem C91_used_rule_is_used_again :
  forall {W} (grammar : gindex (@wmean W)) slv used cat values pre r w b1 w1,
    find_rules grammar cat (length values) = pre ++ [r] ->
    Forall (does_not_match slv values w) pre ->
    matches slv values w r b1 w1 ->
    find_rule grammar slv used cat values w = (Ok (Some r, b1, true), w1).
Proof.
  intros W grammar slv used cat values pre r w b1 w1 Hr Hpre Hm.
  unfold find_rule. rewrite Hr.
  destruct (skip_unmatched slv used values w pre [r] [] Hpre) as (b' & ->).
  rewrite (match_step _ _ _ _ _ _ _ _ _ _ _ Hm). destruct (hash_in (g_hash r) used); reflexivity.
Qed.
Print Assumptions C91_used_rule_is_used_again.

(** ** C92 *)

(** The administration of used rules does not stop a grammar from calling
    itself: when the only rule of a category has no condition and starts with
    the category itself, generating it does not end. *)
Theorem C92_left_recursion_does_not_end_refuted :
  forall {W} (grammar : gindex (@wmean W)) slv cat r c rest,
    find_rules grammar cat 0 = [r] -> unconditional r ->
    g_cons r = c :: rest -> k_pred c = cat -> k_args c = [] -> k_type c <> PWord ->
    ~ In cat ["value"; "text"; "format"] ->
    forall n used optional w, fst (generate_node grammar slv n used cat [] optional w) = OutOfFuel.
Proof.
  intros W grammar slv cat r c rest Hr Hu Hc Hp Ha Ht Hcat.
  induction n as [|n IH]; intros used optional w; [reflexivity|].
  cbn [generate_node]. unfold generate_node_F, bind at 1.
  rewrite (C91_used_rule_is_used_again grammar slv used cat [] [] r w (argument_binding r []) w); auto;
    [|left; auto].
  rewrite Hc. cbn [consequents_loop]. unfold consequent_values. rewrite Ha. cbn [map].
  assert (E : single_consequent (generate_node grammar slv n) r (used ++ [g_hash r]) c []
              = generate_node grammar slv n (used ++ [g_hash r]) cat [] (k_optional c)).
  { unfold single_consequent. rewrite Hp.
    destruct (String.eqb_spec cat "value") as [->|_]; [exfalso; apply Hcat; simpl; auto|].
    destruct (String.eqb_spec cat "text") as [->|_]; [exfalso; apply Hcat; simpl; auto|].
    destruct (String.eqb_spec cat "format") as [->|_]; [exfalso; apply Hcat; simpl; auto|].
    destruct (k_type c); try reflexivity. contradiction. }
  rewrite E. unfold bind. specialize (IH (used ++ [g_hash r]) (k_optional c) w).
  destruct (generate_node grammar slv n (used ++ [g_hash r]) cat [] (k_optional c) w) as [[vu|e|] w1]; simpl in *; congruence.
Qed.
Print Assumptions C92_left_recursion_does_not_end_refuted.

(** ** Examples

    The rules
      s() -> sentence() '.'                        without condition
      sentence() -> 'Yes'                          if output_type('yes')
      sentence() -> 'The answer is ' value(V)      if output_type('value'), output_value(V)
    on an output buffer. *)
Definition ex_buf : lens sds_store sds_store := mkLens (fun s => s) (fun s _ => s).
Definition ex_out : list (modul sds_store) := [core_module; output_buffer ex_buf].
Definition wword (s : string) : constituent := mkCons s [] PWord false false.
Definition wcat (s : string) (args : list string) : constituent := mkCons s args PRelation false false.
Definition wrule_ (a : constituent) (cs : list constituent) (cond : value) : grule (@wmean sds_store) :=
  new_rule a cs (mkWMean cond None None) 0.
Definition otype (s : string) : value := VTuple [VStr "output_type"; VStr s].
Definition rule_s := wrule_ (wcat "s" []) [wcat "sentence" []; wword "."] VNone.
Definition rule_yes := wrule_ (wcat "sentence" []) [wword "Yes"] (VList [otype "yes"]).
Definition rule_value := wrule_ (wcat "sentence" []) [wword "The answer is "; wcat "value" ["V"]]
  (VList [otype "value"; VTuple [VStr "output_value"; VVar "V"]]).
Definition ex_write := grammar_rules [rule_s; rule_yes; rule_value].
Definition ex_buffer : sds_store := sds_insert "output_value" ["value"] [VStr "42"] (sds_insert "output_type" ["type"] [VStr "value"] []).

Example C90_example :
  find_rules ex_write "sentence" 0 = [rule_yes] ++ rule_value :: [] /\
  does_not_match (solve ex_out 5) [] ex_buffer rule_yes /\
  matches (solve ex_out 5) [] ex_buffer rule_value [("V", VStr "42")] ex_buffer /\
  generate_output ex_write (solve ex_out 5) ex_buf 5 ex_buffer = (Ok (VStr "The answer is 42."), []) /\
  (** nothing matches: an error, and the buffer is as it was *)
  generate_output ex_write (solve ex_out 5) ex_buf 5 (sds_insert "output_type" ["type"] [VStr "no"] []) =
  (Exn (Raise "No rule found"), sds_insert "output_type" ["type"] [VStr "no"] []).
Proof.
  split; [reflexivity|]. split; [split; [intros [H|H]; discriminate|reflexivity]|].
  split; [right; split; [intros [H|H]; discriminate|exists []; reflexivity]|]. split; reflexivity.
Qed.

(** [X(A) -> value(A)] if [output_value(A)], [X(B) -> 'b'] if [no]: the second
    time the first rule is used it is without the value *)
Definition rule_again1 := wrule_ (wcat "x" []) [wcat "text" ["A"]] (VList [VTuple [VStr "output_value"; VVar "A"]]).
Definition rule_again2 := wrule_ (wcat "x" []) [wword "b"] (VList [otype "no"]).
Definition rule_twice := wrule_ (wcat "s" []) [wcat "x" []; wword ","; wcat "x" []] VNone.
Definition ex_again := grammar_rules [rule_twice; rule_again1; rule_again2].
Example C91_example :
  used_before [g_hash rule_again1] rule_again1 /\
  matches (solve ex_out 5) [] ex_buffer rule_again1 [("A", VStr "42")] ex_buffer /\
  does_not_match (solve ex_out 5) [] ex_buffer rule_again2 /\
  generate_output ex_again (solve ex_out 5) ex_buf 5 ex_buffer = (Ok (VStr "42,"), []) /\
  (** without the rule that does not match: *)
  generate_output (grammar_rules [rule_twice; rule_again1]) (solve ex_out 5) ex_buf 5 ex_buffer = (Ok (VStr "42,42"), []).
Proof.
  split; [left; reflexivity|].
  split; [right; split; [intros [H|H]; discriminate|exists []; reflexivity]|].
  split; [split; [intros [H|H]; discriminate|reflexivity]|]. split; reflexivity.
Qed.

Definition rule_loop := wrule_ (wcat "s" []) [wcat "s" []; wword "."] VNone.
Example C92_example :
  find_rules (grammar_rules [rule_loop]) "s" 0 = [rule_loop] /\
  forall n, generate_output (grammar_rules [rule_loop]) (solve ex_out 5) ex_buf n ex_buffer = (OutOfFuel, ex_buffer).
Proof.
  split; [reflexivity|]. intros n. unfold generate_output.
  assert (H : forall m used o, generate_node (grammar_rules [rule_loop]) (solve ex_out 5) m used "s" [] o ex_buffer = (OutOfFuel, ex_buffer)).
  { induction m as [|m IH]; intros used o; [reflexivity|]. cbn [generate_node].
    unfold generate_node_F, bind at 1. rewrite (C91_used_rule_is_used_again _ _ _ _ _ [] rule_loop ex_buffer (argument_binding rule_loop []) ex_buffer); auto.
    - cbn [g_cons rule_loop wrule_ new_rule consequents_loop]. unfold bind. cbn. now rewrite IH.
    - left. split; [left; reflexivity|auto]. }
  unfold bind. now rewrite H.
Qed.

(** C41's hypothesis: a grammar that only asks the buffer and has no
    functions; any solver that only reads will do *)
Example C41_example :
  let slv : value -> binding -> M sds_store sres := fun _ b s => (Ok (SList (match sds_get "output_value" s with Some _ => [b] | None => [] end)), s) in
  quiet_grammar ex_write slv ex_buf /\
  generate_output ex_write slv ex_buf 5 ex_buffer = (Ok (VStr "Yes."), []) /\
  generate_output ex_write slv ex_buf 5 (sds_insert "output_type" ["type"] [VStr "no"] []) =
    (Exn (Raise "No rule found"), sds_insert "output_type" ["type"] [VStr "no"] []).
Proof.
  split; [|split; reflexivity]. split.
  - intros v b w. reflexivity.
  - intros c n r Hr.
    assert (Hm : w_format (g_mean r) = None /\ w_post (g_mean r) = None); [|destruct Hm as [-> ->]; split; discriminate].
    unfold ex_write, find_rules in Hr. cbn in Hr.
    destruct (String.eqb c "s"); [destruct n; simpl in Hr; [destruct Hr as [<-|[]]; auto|contradiction]|].
    destruct (String.eqb c "sentence"); [destruct n; simpl in Hr; [destruct Hr as [<-|[<-|[]]]; auto|contradiction]|].
    contradiction.
Qed.
