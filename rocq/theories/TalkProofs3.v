(** * Sentences: carrying out an intent, and writing the reply *)

From Coq Require Import ZArith String Ascii List Bool Lia Arith.
From Verif Require Import Py PyFacts Effects EffectsFacts Atoms Solver SolverSpec SolverProofs CoreModule CoreSpec CoreProofs CoreProofs2 CoreProofs3
  InferenceModule TableModule SimpleDataSource Memory MemoryProofs Grammar Generator
  DatalogSpec DatalogProofs FolSpec FolProofs FolProofs2 FolProofs3 FolProofs4 SimProofs PropFol PropCarry PropSystem2
  QuestionSystem FragmentSpec FragmentModel TalkSpec TalkModel.
Import ListNotations.
Local Open Scope nat_scope.
Local Open Scope string_scope.
Local Open Scope list_scope.

Lemma rules_get_app p a b : rules_get p (a ++ b) = match rules_get p a with Some l => Some l | None => rules_get p b end.
Proof. induction a as [|[k rs] a IH]; cbn; auto. destruct (String.eqb p k); auto. Qed.
Lemma stored_none rules p : (forall r, In r rules -> fa_pred (rl_head r) <> p) -> rules_get p (stored_rules rules) = None.
Proof.
  intros H. destruct (rules_get p (stored_rules rules)) as [rs|] eqn:E; auto. exfalso.
  pose proof (stored_rules_gen rules [] p) as G. unfold stored_rules in E. rewrite E in G.
  assert (N : forall l, (forall r, In r l -> fa_pred (rl_head r) <> p) -> forall rb, rules_get p rb = None ->
    rules_get p (fold_left (fun rb r => rules_add (fa_pred (rl_head r)) (stored_rule r) rb) l rb) = None).
  { clear. induction l as [|r l IH]; intros H rb Hrb; [auto|]. cbn. apply IH; [intros; apply H; now right|].
    assert (Np : p <> fa_pred (rl_head r)) by (intros ->; apply (H r); [now left|reflexivity]). clear -Hrb Np.
    induction rb as [|[k rs] rb IH]; cbn in *.
    - apply String.eqb_neq in Np. now rewrite Np.
    - destruct (String.eqb_spec p k) as [->|Nk]; [discriminate|]. destruct (String.eqb_spec (fa_pred (rl_head r)) k); cbn.
      + destruct (String.eqb_spec p k); [contradiction|auto].
      + destruct (String.eqb_spec p k); [contradiction|auto]. }
  rewrite (N rules H []) in E; [discriminate|reflexivity].
Qed.

(** the names of the intents and of the output *)
Definition reserved : list string :=
  map fst intent_rules ++ map fst buffer_columns ++ ["output_no_sentence"; "output_not_understood"].

Section Runtime.
  Context {V : Type}.
  Variable LR : lens V rulebase.
  Variable tables : V -> string -> option (list (list value)).
  Variable LB : lens V sds_store.
  Variable v : V.
  Variable arity : string -> nat.
  Variable rules : list folrule.
  Hypothesis HB : lens_ok LB.
  Hypothesis HLR : forall s w, lget LR (lset LB s w) = lget LR w.
  Hypothesis Htb : forall s w p, tables (lset LB s w) p = tables w p.
  Hypothesis Hrules : lget LR v = stored_rules rules ++ intent_rules.
  Hypothesis Htab : good_tables tables arity v.
  Hypothesis Hnames : forall p, tables v p <> None -> user_pred p.
  Hypothesis Hgood : forall r, In r rules -> good_rule (flat_atom arity) r.
  Hypothesis Hres : forall p, has_relation tables rules v p -> ~ In p reserved.

  Notation mods := (talk_mods LR tables LB).
  (** the model with these records in the output buffer *)
  Definition buffered (st : sds_store) : V := lset LB st v.

  Lemma related_user p : has_relation tables rules v p -> user_pred p.
  Proof. intros [H|(r & Hr & <-)]; [now apply Hnames|]. now destruct (Hgood r Hr) as ((? & _) & _). Qed.
  Lemma not_related p st : ~ has_relation tables rules v p ->
    rules_get p (lget LR (buffered st)) = rules_get p intent_rules /\ tables (buffered st) p = None.
  Proof.
    intros H. unfold buffered. rewrite HLR, Htb, Hrules, rules_get_app. split.
    - rewrite stored_none; auto. intros r Hr E. apply H. right. eauto.
    - destruct (tables v p) eqn:E; auto. exfalso. apply H. left. congruence.
  Qed.
  Lemma core_unrelated p : table_get (W := unit) p core_table <> None -> ~ has_relation tables rules v p.
  Proof. intros H R. apply related_user in R as (E & _). contradiction. Qed.
  Lemma reserved_unrelated p : In p reserved -> ~ has_relation tables rules v p.
  Proof. intros H R. now apply Hres in R. Qed.

  Lemma core_alone p st : In p ["find_all"; "find_one"; "store"; "scoped"] \/ In p fol_core -> only_core mods (buffered st) p.
  Proof.
    intros Hp.
    assert (Np : ~ has_relation tables rules v p /\ rules_get p intent_rules = None /\ p <> "learn_rule" /\ output_buffer LB (buffered st) p = None).
    { split; [apply core_unrelated|]; destruct Hp as [Hp|Hp]; unfold fol_core in Hp; cbn [In] in Hp;
        repeat (destruct Hp as [<-|Hp]; [repeat split; discriminate|]); destruct Hp. }
    destruct Np as (Np & Ei & Nl & Eo). destruct (not_related p st Np) as (E1 & E2).
    eexists. split; [reflexivity|]. intros m [<-|[<-|[<-|[]]]].
    - unfold inference_module. rewrite E1, Ei. apply String.eqb_neq in Nl. now rewrite Nl.
    - unfold table_module. now rewrite E2.
    - exact Eo.
  Qed.
  Lemma find_intent p r st : In (p, [r]) intent_rules ->
    find_relations mods (buffered st) p = [mkRel p [] (handle_rule LR) None] /\ rules_get p (lget LR (buffered st)) = Some [r].
  Proof.
    intros H. assert (Hp : In p reserved) by (unfold reserved; apply in_or_app; left; apply (in_map fst _ _ H)).
    destruct (not_related p st (reserved_unrelated p Hp)) as (E1 & E2).
    assert (Ei : rules_get p intent_rules = Some [r] /\ core_module (buffered st) p = None /\ output_buffer LB (buffered st) p = None).
    { cbn [intent_rules In] in H. repeat (destruct H as [[= <- <-]|H]; [repeat split|]). destruct H. }
    destruct Ei as (Ei & Ec & Eo). rewrite E1, Ei. split; auto.
    unfold find_relations, talk_mods. cbn [find_relations_in]. rewrite Ec, Eo. unfold inference_module, table_module. now rewrite E1, Ei, E2.
  Qed.
  Lemma find_output p cols st : In (p, cols) buffer_columns ->
    find_relations mods (buffered st) p = [memory_relation (buffer_select LB) (buffer_insert LB) p cols].
  Proof.
    intros H. assert (Hp : In p reserved) by (unfold reserved; rewrite !in_app_iff; right; left; apply (in_map fst _ _ H)).
    destruct (not_related p st (reserved_unrelated p Hp)) as (E1 & E2).
    assert (Ei : rules_get p intent_rules = None /\ core_module (buffered st) p = None /\ p <> "learn_rule" /\
      output_buffer LB (buffered st) p = Some (memory_relation (buffer_select LB) (buffer_insert LB) p cols)).
    { cbn [buffer_columns In] in H. repeat (destruct H as [[= <- <-]|H]; [repeat split; discriminate|]). destruct H. }
    destruct Ei as (Ei & Ec & Nl & Eo). unfold find_relations, talk_mods. cbn [find_relations_in]. rewrite Ec, Eo.
    unfold inference_module, table_module. rewrite E1, Ei, E2. apply String.eqb_neq in Nl. now rewrite Nl.
  Qed.

  (** ** the query inside *)
  Definition base_lens : lens rulebase rulebase := mkLens (fun w => w) (fun s _ => s).
  Notation base := (stored_rules rules).
  Lemma base_program : good_program base_lens (fun _ => tables v) arity rules base.
  Proof. split; [exact Htab|]. split; [exact Hnames|]. split; [reflexivity|exact Hgood]. Qed.

  Variable rank : string -> nat.
  Variable sig : string -> list sort.
  Hypothesis Hrank : hierarchical rank rules.
  Hypothesis Hkn : forall r p, In r rules -> In p (preds (rl_body r)) -> has_relation tables rules v p.
  Hypothesis Hdb : forall p t, In t (db_of tables v p) -> Forall2 of_sort (sig p) t.
  Hypothesis Hsr : forall r, In r rules -> sorted_rule sig r.
  Variable ext : string -> list value -> Prop.
  Hypothesis Hext : completed (db_of tables v) rules ext.

  Lemma inner_query q J st : answerable_query tables arity rules v sig q -> (forall x, In x (vars q) -> bget x J = None) ->
    exists n0, forall n, n0 <= n -> exists l,
      solve mods n (query_of q) J (buffered st) = (Ok (SList (map (app J) l)), buffered st) /\ exact ext q [] l.
  Proof.
    intros (Hwf & Hpk & env & Hsq) HJ.
    assert (Hk : all_known (fun _ => tables v) rules base q) by (split; auto).
    destruct (C44_sorted_programs_are_answered rulebase base_lens (fun _ => tables v) arity rules base rank sig env q [] base_program Hrank Hk)
      as (ext0 & _ & _ & n0 & Hn0); auto; try (intros x y; discriminate).
    exists n0. intros n Hn. destruct (Hn0 n Hn) as (l & El & _). exists l.
    assert (Hu : forall p, needed rules q p -> has_relation tables rules v p).
    { intros p Hp. destruct Hp as [p Hp|fr p Hfr _ Hp]; auto. now apply (Hkn fr). }
    split.
    - destruct (C38_answers_depend_on_what_is_mentioned rulebase V base_lens LR (fun _ => tables v) tables arity rules [output_buffer LB]
        base (buffered st) n q J [] (SList l) base base_program) as (l' & [= <-] & E); auto.
      + split; [|split; [|split]].
        * intros p Hp. unfold buffered. rewrite HLR, Hrules, rules_get_app. cbn [lget base_lens].
          destruct (rules_get p base) eqn:E; auto.
          assert (Nr : ~ In p reserved) by (apply Hres; auto). unfold reserved in Nr. rewrite !in_app_iff in Nr.
          clear -Nr. assert (N : forall rb : rulebase, ~ In p (map fst rb) -> rules_get p rb = None).
          { clear. induction rb as [|[k rs] rb IH]; intros H; cbn in *; auto. destruct (String.eqb_spec p k) as [->|]; [exfalso; auto|auto]. }
          apply N. tauto.
        * intros p Hp. unfold buffered. apply Htb.
        * intros p Hp. assert (Nh : ~ has_relation tables rules v p).
          { intros R. apply related_user in R. destruct (fol_core_not_user p Hp). contradiction. }
          destruct (not_related p st Nh) as (E1 & E2). split; auto. rewrite E1.
          clear -Hp. unfold fol_core in Hp. cbn [In] in Hp. repeat (destruct Hp as [<-|Hp]; [reflexivity|]). destruct Hp.
        * intros m p [<-|[]] [Hp|Hp].
          -- assert (Nr : ~ In p reserved) by (apply Hres; auto). unfold reserved in Nr. rewrite !in_app_iff in Nr.
             assert (No : ~ In p (map fst buffer_columns)) by tauto. clear -No. unfold output_buffer.
             induction buffer_columns as [|[k cols] l IH]; [reflexivity|]. cbn in *.
             destruct (String.eqb_spec p k) as [->|]; [exfalso; auto|auto].
          -- unfold fol_core in Hp. cbn [In] in Hp. repeat (destruct Hp as [<-|Hp]; [reflexivity|]). destruct Hp.
      + intros p Hp. apply related_user; auto.
      + intros x [Hx|[]]. auto.
      + rewrite app_nil_r in E. exact E.
    - pose proof base_program as (Ht & Hn1 & Hr & Hg).
      destruct (fol_exact base_lens (fun _ => tables v) arity rules base ext Ht Hn1 Hr Hg Hext n q [] (SList l) base Hwf) as (_ & l2 & [= <-] & Hx); auto.
      intros x y. discriminate.
  Qed.

  (** ** the output buffer *)
  Lemma buffer_of st : lget LB (buffered st) = st.
  Proof. apply (lens_get_set LB HB). Qed.
  Lemma write_output n p cols args st : In (p, cols) buffer_columns ->
    sv_write (solver_at mods (S n)) (VTuple (VStr p :: args)) (buffered st) = (Ok tt, buffered (sds_insert p cols args st)).
  Proof.
    intros H. cbn [solver_at sv_write]. unfold write_F. unfold bind at 1. cbn [atom_parts ret]. unfold bind at 1, get.
    rewrite (find_output p cols st H). cbn [write_rels memory_relation r_write r_pred r_cols]. unfold bind at 1. unfold memory_write, buffer_insert. cbn [c_pred c_cols].
    unfold bind, get, put. rewrite buffer_of. unfold buffered. rewrite (lens_set_set LB HB). reflexivity.
  Qed.

  Lemma store_one n p1 cols1 args1 b st : In (p1, cols1) buffer_columns ->
    solve mods (S (S n)) (VList [store_of [out p1 args1]]) b (buffered st) =
    (Ok (SList [b]), buffered (sds_insert p1 cols1 (map (fun a => bind_variables a b) args1) st)).
  Proof.
    intros H1. unfold store_of, out. rewrite (core_solve mods (S n) "store" q_store _ b (buffered st)); [|apply core_alone; cbn; auto|reflexivity|discriminate].
    unfold q_store, item. unfold bind at 1 2. cbn [db_values map db_value nth_error ret c_binding bind_variables foldM].
    unfold bind at 1 2. rewrite (write_output n p1 cols1) by exact H1. reflexivity.
  Qed.
  Lemma store_two n p1 cols1 args1 p2 cols2 args2 b st : In (p1, cols1) buffer_columns -> In (p2, cols2) buffer_columns ->
    solve mods (S (S n)) (VList [store_of [out p1 args1; out p2 args2]]) b (buffered st) =
    (Ok (SList [b]), buffered (sds_insert p2 cols2 (map (fun a => bind_variables a b) args2)
                                (sds_insert p1 cols1 (map (fun a => bind_variables a b) args1) st))).
  Proof.
    intros H1 H2. unfold store_of, out. rewrite (core_solve mods (S n) "store" q_store _ b (buffered st)); [|apply core_alone; cbn; auto|reflexivity|discriminate].
    unfold q_store, item. unfold bind at 1 2. cbn [db_values map db_value nth_error ret c_binding bind_variables foldM].
    unfold bind at 1 2. rewrite (write_output n p1 cols1) by exact H1. unfold bind at 1.
    rewrite (write_output n p2 cols2) by exact H2. reflexivity.
  Qed.

  (** ** one atom after the other *)
  Lemma then_solve n a1 a2 b b1 b2 w w1 w2 : solve mods n (VList [a1]) b w = (Ok (SList [b1]), w1) ->
    solve mods n (VList [a2]) b1 w1 = (Ok (SList [b2]), w2) -> solve mods n (VList [a1; a2]) b w = (Ok (SList [b2]), w2).
  Proof.
    destruct n; [discriminate|]. unfold solve. cbn [solver_at sv_solve]. unfold solve_F. cbn [solve_atoms]. intros E1 E2.
    unfold bind at 1. rewrite E1. unfold bind at 1. cbn [sres_items ret foldM]. unfold bind at 1 2 3. rewrite E2. reflexivity.
  Qed.
  Lemma then_nothing n a1 a2 b w w1 : solve mods n (VList [a1]) b w = (Ok (SList []), w1) ->
    solve mods n (VList [a1; a2]) b w = (Ok (SList []), w1).
  Proof.
    destruct n; [discriminate|]. unfold solve. cbn [solver_at sv_solve]. unfold solve_F. cbn [solve_atoms]. intros E1.
    unfold bind at 1. rewrite E1. reflexivity.
  Qed.

  (** ** an intent: its rule is carried out, with the arguments *)
  Lemma run_intent n p r args rb rb' st w' a body : In (p, [r]) intent_rules -> ru_body r = VList (a :: body) ->
    bind_head [] (tl (ru_head r)) args [] = Some rb -> length args = length (tl (ru_head r)) ->
    Forall (fun x => is_var x = false /\ x <> VNone) args ->
    solve mods n (ru_body r) rb (buffered st) = (Ok (SList [rb']), w') ->
    solve mods (S n) (VList [VTuple (VStr p :: args)]) [] (buffered st) = (Ok (SList [[]]), w').
  Proof.
    intros Hp Eb Eh El Ha E. destruct (find_intent p r st Hp) as (Ef & Eg).
    assert (Np : p <> DISJUNCTION) by (intros ->; cbn in Hp; intuition discriminate).
    rewrite (single_solve mods n p _ args [] (buffered st) Ef Np). cbn [r_query r_pred r_cols].
    unfold handle_rule. unfold bind at 1 2. cbn [get c_pred c_args c_binding]. rewrite Eg.
    unfold bind at 1. cbn [foldM]. unfold bind at 1. unfold solve_rule. unfold bind at 1 2. cbn [ret filter]. rewrite Eh.
    rewrite Eb in *. unfold bind at 1. cbn [elements or_throw ret filter]. unfold bind at 1 2. unfold solve in E. rewrite E. cbn [sres_items ret head_rows].
    assert (Hr : head_row rb' (tl (ru_head r)) args = Some args).
    { clear -El Ha. revert El Ha. generalize (tl (ru_head r)) as hs. induction args as [|x args IH]; intros hs El Ha; [now destruct hs|].
      destruct hs as [|h hs]; [discriminate|]. inversion Ha as [|? ? (Hv & _) Ha']; subst. cbn. rewrite (IH hs); auto. destruct x; auto; discriminate. }
    rewrite Hr. cbn [ret app map].
    apply finish_received.
    - clear -Ha. induction Ha as [|x args (Hv & _) _ IH]; constructor; auto. apply rec_const. intros y ->. discriminate.
    - eapply Forall_impl; [|exact Ha]. intros x (_ & H). exact H.
  Qed.

  (** ** finding *)
  Lemma found n x qs R J st l : bget R J = None ->
    solve mods n (VList qs) J (buffered st) = (Ok (SList (map (app J) l)), buffered st) ->
    bget x J = None ->
    exists kept, first_values [] (flat_map (fun r => match bget x r with Some c => [c] | None => [] end) l) kept /\
      forall E S, bget E J = Some (VStr x) -> bget S J = Some (VList qs) ->
        solve mods (Datatypes.S n) (VList [VTuple [VStr "find_all"; VVar E; VVar S; VVar R]]) J (buffered st) =
          (Ok (SList [bset R (VList kept) J]), buffered st) /\
        (forall c rest, kept = c :: rest ->
          solve mods (Datatypes.S n) (VList [VTuple [VStr "find_one"; VVar E; VVar S; VVar R]]) J (buffered st) =
          (Ok (SList [bset R c J]), buffered st)).
  Proof.
    intros HR E Hx.
    destruct (first_values_exist (flat_map (fun r => match bget x r with Some c => [c] | None => [] end) l) []) as (kept & Hk).
    exists kept. split; auto. intros E0 S0 He Hs.
    assert (Hf : forall p R', find_values (solver_at mods n) (db_values J [VVar E0; VVar S0; R']) (mkCtx p [] [VVar E0; VVar S0; R'] J) (buffered st) = (Ok kept, buffered st)).
    { intros p R'. unfold find_values, item. unfold bind at 1 2 3 4. cbn [db_values map db_value nth_error ret]. rewrite He, Hs. cbn [c_binding].
      unfold solve in E. rewrite E. cbn [sres_items ret].
      apply (find_loop (VStr x) _ [] (map (fun r => match bget x r with Some c => [c] | None => [] end) l) kept).
      - clear -Hx. induction l as [|r l IH]; [constructor|]. cbn. constructor; [|exact IH].
        destruct (bget x r) as [c|] eqn:Er; [apply col_here|apply col_not]; rewrite bget_app, Hx; exact Er.
      - rewrite <- flat_map_concat_map. exact Hk. }
    assert (Fin : forall c, finish [VVar E0; VVar S0; VVar R] J (QRows [VList [VNone; VNone; c]]) (buffered st) = (Ok (SList [bset R c J]), buffered st)).
    { intros c. rewrite finish_row by reflexivity. unfold bind at 1. erewrite match_args_bound by eassumption. erewrite match_args_bound by eassumption.
      rewrite match_args_unbound by assumption. unfold bind at 1. cbn [subscript nth_error ret]. rewrite HR. reflexivity. }
    split.
    - rewrite (core_solve mods n "find_all" q_find_all _ J (buffered st)); [|apply core_alone; cbn; auto|reflexivity|discriminate].
      unfold q_find_all. unfold bind at 1 2. rewrite Hf. unfold rows. cbn [ret map]. apply Fin.
    - intros c rest ->. rewrite (core_solve mods n "find_one" q_find_one _ J (buffered st)); [|apply core_alone; cbn; auto|reflexivity|discriminate].
      unfold q_find_one. unfold bind at 1 2. rewrite Hf. unfold rows. cbn [ret map]. apply Fin.
  Qed.
End Runtime.
