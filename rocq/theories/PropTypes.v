(** * Property C97, continued: the stored types of entities *)

From Coq Require Import ZArith String List Bool Arith Lia.
From Verif Require Import Py PyFacts Effects EffectsFacts Solver CoreModule CoreSpec CoreProofs CoreProofs3 SolverProofs SolverProofs2 MatchProofs
  DataSpec SimpleDataSource Sql SqliteDataSource SqliteProofs SqliteProofs2 Memory MemoryProofs PropOutput.
Import ListNotations.
Local Open Scope string_scope.
Local Open Scope list_scope.

(** what happens in a dialog *)
Inductive dialog_op : Type := Tell (e t : string) | Context_ (o : context_op).

(** it was told that [e] is a [t], and since then nothing was cleared *)
Inductive told (e t : string) : list dialog_op -> Prop :=
| told_now h : told e t (h ++ [Tell e t])
| told_later h o : told e t h -> o <> Context_ Clear -> told e t (h ++ [o]).

Definition about_contexts (h : list dialog_op) : list context_op :=
  flat_map (fun o => match o with Context_ c => [c] | Tell _ _ => [] end) h.

(** every step succeeds *)
Inductive dialog_history {W} (L : lens W conn) (mods : list (modul W)) (n : nat) (b : binding)
  : list dialog_op -> W -> W -> Prop :=
| dh_nil w : dialog_history L mods n b [] w w
| dh_tell h e t w w1 w2 :
    solve mods (S (S n)) (VList [VTuple [VStr "store"; VList [VTuple [VStr "dialog_isa"; VStr e; VStr t]]]]) b w = (Ok (SList [b]), w1) ->
    dialog_history L mods n b h w1 w2 -> dialog_history L mods n b (Tell e t :: h) w w2
| dh_context h o w w1 w2 :
    context_history L mods n b [o] w w1 ->
    dialog_history L mods n b h w1 w2 -> dialog_history L mods n b (Context_ o :: h) w w2.

Lemma told_snoc e t h o : told e t (h ++ [o]) <-> o = Tell e t \/ (told e t h /\ o <> Context_ Clear).
Proof.
  split.
  - intros H. inversion H as [h' E|h' o' Ha H1 E]; apply app_inj_tail in E as [-> ->]; auto.
  - intros [-> | (H1 & H2)]; [apply told_now|now apply told_later].
Qed.

Section Types.
  Context {W : Type}.
  Variable L : lens W conn.
  Hypothesis HL : lens_ok L.
  Variable mods : list (modul W).
  Hypothesis Hd : one_dialog L mods.
  Hypothesis Hcore : forall w, only_core mods w "store".

  Let rec_of (p : string * string) : given := mkGiven ["entity"; "type"] [VStr (fst p); VStr (snd p)].
  Let row (p : string * string) : list value := [VStr (fst p); VStr (snd p)].
  Definition types_are (w : W) (l : list (string * string)) : Prop :=
    db_get "dialog_isa" (current (lget L w)) = Some (mkTbl ["entity"; "type"] [] (map row l)).
  Lemma rows_given l : map row l = map (row_of ["entity"; "type"]) (map rec_of l).
  Proof. rewrite map_map. apply map_ext. intros p. reflexivity. Qed.
  Lemma isa_fits x e t : t_cols x = ["entity"; "type"] -> fits_table x "dialog_isa" ["entity"; "type"] [VStr e; VStr t].
  Proof.
    intros E. constructor; try reflexivity; try discriminate.
    - intros c [<-|[<-|[]]]; reflexivity.
    - rewrite E. apply incl_refl.
  Qed.

  Lemma isa_relation w :
    find_relations mods w "dialog_isa" = [memory_relation (dialog_select L) (dialog_insert L) "dialog_isa" ["entity"; "type"]].
  Proof. apply Hd; [|reflexivity]. cbn. tauto. Qed.

  Lemma one_write (ms : list (modul W)) w p sv args r f : find_relations_in ms w p = [r] -> r_write r = Some f ->
    (exists m, In m ms /\ m w p <> None) /\
    write_actions ms w sv p args = [f sv args (mkCtx (r_pred r) (r_cols r) args [])].
  Proof.
    induction ms as [|m ms IH]; [discriminate|]. cbn [find_relations_in write_actions]. destruct (m w p) as [r'|] eqn:E.
    - intros [= -> Hr] Hf. rewrite Hf. split; [exists m; split; [now left|congruence]|]. f_equal.
      clear IH. induction ms as [|m' ms IH]; [reflexivity|]. cbn [find_relations_in write_actions] in *.
      destruct (m' w p); [discriminate|]. now apply IH.
    - intros Hr Hf. destruct (IH Hr Hf) as [(m' & Hm & Hn) ->]. split; [|reflexivity]. exists m'. split; [now right|exact Hn].
  Qed.

  Lemma tell_types n e t b w names l : contexts_are L w names -> types_are w l ->
    exists w', solve mods (S (S n)) (VList [VTuple [VStr "store"; VList [VTuple [VStr "dialog_isa"; VStr e; VStr t]]]]) b w = (Ok (SList [b]), w') /\
      contexts_are L w' names /\ types_are w' (l ++ [(e, t)]).
  Proof.
    intros HC HT.
    assert (HI : exists w', dialog_insert L "dialog_isa" ["entity"; "type"] [VStr e; VStr t] w = (Ok tt, w') /\
      contexts_are L w' names /\ types_are w' (l ++ [(e, t)])).
    { eexists. split.
      - apply on_conn_run. eapply (sq_insert_run "dialog_isa" _ ["entity"; "type"] [VStr e; VStr t]); [|exact HT|reflexivity|apply rows_given].
        apply isa_fits. reflexivity.
      - unfold contexts_are, types_are in *. rewrite (lens_get_set _ HL). cbn [current]. rewrite !db_get_put.
        cbn [String.eqb Ascii.eqb Bool.eqb]. split; [exact HC|]. rewrite HT. cbn [t_cols t_unique]. do 2 f_equal.
        rewrite rows_given. f_equal. now rewrite map_app. }
    destruct HI as (w' & HI & HC' & HT'). exists w'. split; [|auto].
    destruct (one_write mods w "dialog_isa" (solver_at mods n) [VStr e; VStr t] _ _ (isa_relation w) eq_refl) as [Hm Ha].
    apply (solve_store mods n _ [VTuple [VStr "dialog_isa"; VStr e; VStr t]]); [apply Hcore| |].
    - constructor; [|constructor]. constructor. repeat constructor; discriminate.
    - apply (st_cons _ _ _ _ _ _ w'); [exact Hm| |constructor]. rewrite Ha. apply (pf_cons _ _ _ w'); [exact HI|constructor].
  Qed.

  Lemma context_step n o b w names l : contexts_are L w names -> types_are w l ->
    exists w' names', context_history L mods n b [o] w w' /\ contexts_are L w' names' /\
      types_are w' (match o with Clear => [] | _ => l end) /\
      names' = match o with Start s => names ++ [s] | End_ s => filter (fun x => negb (String.eqb x s)) names | Clear => [] end.
  Proof.
    intros HC HT.
    assert (K : forall w', only_contexts L w w' -> types_are w' l).
    { intros w' (c & -> & _ & H). unfold types_are in *. rewrite (lens_get_set _ HL), H by discriminate. exact HT. }
    destruct o as [s|s|].
    - destruct (solve_start_context L HL mods n s b w names HC) as (w1 & E & C1 & O1).
      { apply Hd; [|reflexivity]. cbn. tauto. }
      exists w1, (names ++ [s]). split; [eapply ch_start; [exact E|constructor]|]. auto.
    - destruct (solve_end_context L HL mods n s b w names HC) as (w1 & E & C1 & O1).
      { apply Hd; [|reflexivity]. cbn. tauto. }
      exists w1, (filter (fun x => negb (String.eqb x s)) names). split; [eapply ch_end; [exact E|constructor]|]. auto.
    - destruct (clear_contexts L HL w) as (w1 & E & C1 & T1).
      exists w1, []. split; [eapply ch_clear; [exact E|constructor]|]. auto.
  Qed.

  Lemma solve_isa n e t b w l : types_are w l ->
    exists r, solve mods (S n) (VList [VTuple [VStr "dialog_isa"; VStr e; VStr t]]) b w = (Ok (SList r), w) /\
      (In (e, t) l -> r = [b]) /\ (~ In (e, t) l -> r = []).
  Proof.
    intros H. rewrite (single_solve mods n "dialog_isa" _ [VStr e; VStr t] b w (isa_relation w)) by discriminate.
    cbn [memory_relation r_query r_pred r_cols]. unfold memory_query.
    unfold bind at 1. unfold bind at 1. cbn [db_values map db_value c_pred c_cols]. unfold dialog_select.
    erewrite on_conn_run.
    2:{ eapply (sq_select_run "dialog_isa" _ ["entity"; "type"] [VStr e; VStr t]); [|exact H|apply rows_given]. apply isa_fits. reflexivity. }
    replace (lset L _ w) with w.
    2:{ destruct (lget L w) eqn:E. cbn. rewrite <- E. symmetry. apply (lens_set_get _ HL). }
    cbn [ret].
    set (found := map VList (spec_select _ _ _)).
    assert (F : Forall (fun v => v = VList [VStr e; VStr t]) found /\ (In (e, t) l <-> found <> [])).
    { unfold found, spec_select. clear -l. induction l as [|[e' t'] l [IH1 IH2]].
      { split; [apply Forall_nil|]. split; [intros []|]. intros H. now apply H. }
      cbn [map filter fst snd].
      assert (E : fits ["entity"; "type"] [VStr e; VStr t] (rec_of (e', t')) = String.eqb e' e && String.eqb t' t).
      { unfold fits, rec_of. cbn. now rewrite andb_true_r. }
      rewrite E. destruct (String.eqb_spec e' e) as [->|He]; [destruct (String.eqb_spec t' t) as [->|Ht]|]; cbn [andb].
      - cbn [map]. split; [apply Forall_cons; [reflexivity|exact IH1]|]. split; [discriminate|intros _; now left].
      - split; [exact IH1|]. rewrite <- IH2. split; [intros [[=]|Hi]; [congruence|exact Hi]|now right].
      - split; [exact IH1|]. rewrite <- IH2. split; [intros [[=]|Hi]; [congruence|exact Hi]|now right]. }
    clearbody found. destruct F as [F1 F2].
    assert (G : forall acc, (acc = [] \/ acc = [VList [VStr e; VStr t]]) ->
      fold_left add_row found acc = match found with [] => acc | _ => [VList [VStr e; VStr t]] end).
    { clear F2. induction F1 as [|v found -> _ IH]; intros acc Ha; [reflexivity|]. cbn [fold_left].
      assert (E : add_row acc (VList [VStr e; VStr t]) = [VList [VStr e; VStr t]]).
      { destruct Ha as [-> | ->]; [reflexivity|]. unfold add_row. cbn [existsb]. rewrite String.eqb_refl. reflexivity. }
      rewrite E, IH by auto. destruct found; reflexivity. }
    unfold finish. cbv zeta. rewrite G by auto. destruct found as [|v found].
    - exists []. split; [reflexivity|]. rewrite F2. split; congruence.
    - exists [b]. split; [|rewrite F2; split; [reflexivity|intros Hn; destruct Hn; discriminate]].
      cbn. unfold create_results. cbn. unfold bind. cbn. rewrite !String.eqb_refl. reflexivity.
  Qed.

  Lemma dialog_steps n b : forall h h0 w names l, contexts_are L w names -> types_are w l ->
    (forall s, In s names <-> active s (about_contexts h0)) -> (forall e t, In (e, t) l <-> told e t h0) ->
    exists w' names' l', dialog_history L mods n b h w w' /\ contexts_are L w' names' /\ types_are w' l' /\
      (forall s, In s names' <-> active s (about_contexts (h0 ++ h))) /\ (forall e t, In (e, t) l' <-> told e t (h0 ++ h)).
  Proof.
    induction h as [|o h IH]; intros h0 w names l HC HT Hn Hl.
    - exists w, names, l. rewrite !app_nil_r. split; [constructor|]. auto.
    - assert (A : about_contexts (h0 ++ [o]) = about_contexts h0 ++ match o with Context_ c => [c] | Tell _ _ => [] end).
      { unfold about_contexts. rewrite flat_map_app. cbn [flat_map]. now rewrite app_nil_r. }
      destruct o as [e t|o].
      + destruct (tell_types n e t b w names l HC HT) as (w1 & E & C1 & T1).
        destruct (IH (h0 ++ [Tell e t]) w1 names (l ++ [(e, t)]) C1 T1) as (w2 & names2 & l2 & H1 & H2 & H3 & H4 & H5).
        * rewrite A, app_nil_r. exact Hn.
        * intros e' t'. rewrite in_app_iff, Hl, told_snoc. split.
          -- intros [H|[[= -> ->]|[]]]; [right; split; [exact H|discriminate]|now left].
          -- intros [[= -> ->]|(H & _)]; [right; now left|now left].
        * exists w2, names2, l2. rewrite <- app_assoc in H4, H5. split; [eapply dh_tell; eassumption|]. auto.
      + destruct (context_step n o b w names l HC HT) as (w1 & names1 & E & C1 & T1 & En).
        destruct (IH (h0 ++ [Context_ o]) w1 names1 _ C1 T1) as (w2 & names2 & l2 & H1 & H2 & H3 & H4 & H5).
        * intros s'. rewrite A, active_snoc, <- Hn. subst names1. destruct o as [s|s|].
          -- rewrite in_app_iff. split; [intros [H|[->|[]]]; [right; repeat split; [exact H|discriminate|discriminate]|now left]|].
             intros [[= ->]|(H & _)]; [right; now left|now left].
          -- rewrite filter_In. split.
             ++ intros [H Hne]. right. split; [exact H|]. split; [|discriminate]. intros [= ->]. now rewrite String.eqb_refl in Hne.
             ++ intros [[=]|(H & Hne & _)]. split; [exact H|]. destruct (String.eqb_spec s' s); [congruence|reflexivity].
          -- split; [intros []|]. intros [[=]|(_ & _ & Hne)]. congruence.
        * intros e' t'. rewrite told_snoc, <- Hl. destruct o as [s|s|].
          -- split; [intros H; right; split; [exact H|discriminate]|intros [[=]|[H _]]; exact H].
          -- split; [intros H; right; split; [exact H|discriminate]|intros [[=]|[H _]]; exact H].
          -- split; [intros []|]. intros [[=]|[_ H]]. congruence.
        * exists w2, names2, l2. rewrite <- app_assoc in H4, H5. split; [eapply dh_context; eassumption|]. auto.
  Qed.
End Types.

(** After clearing and any history in which types of entities are stored and
    contexts are started, ended and cleared, in any order: [dialog_isa(e, t)] is
    true exactly when it was stored after the last time that all was cleared,
    and [context(s)] is true exactly when the context is active.  The two do not
    disturb each other. *)
Theorem C97_types_last_until_they_are_cleared :
  forall {W} (L : lens W conn) mods n b w0 h,
    lens_ok L -> one_dialog L mods -> (forall w, only_core mods w "store") ->
    exists w, dialog_history L mods n b (Context_ Clear :: h) w0 w /\
      (forall e t, exists l, solve mods (S n) (VList [VTuple [VStr "dialog_isa"; VStr e; VStr t]]) b w = (Ok (SList l), w) /\
        (told e t h -> l = [b]) /\ (~ told e t h -> l = [])) /\
      (forall s, exists l, solve mods (S n) (VList [VTuple [VStr "context"; VStr s]]) b w = (Ok (SList l), w) /\
        (active s (about_contexts h) -> l = [b]) /\ (~ active s (about_contexts h) -> l = [])).
Proof.
  intros W L mods n b w0 h HL Hd Hcore. destruct (clear_contexts L HL w0) as (w1 & E & C1 & T1).
  destruct (dialog_steps L HL mods Hd Hcore n b h [] w1 [] [] C1 T1) as (w & names & l & HH & C & T & Hn & Hl).
  { intros s. split; [intros []|]. intros H. inversion H; destruct h0; discriminate. }
  { intros e t. split; [intros []|]. intros H. inversion H; destruct h0; discriminate. }
  exists w. split; [|split].
  - eapply dh_context; [|exact HH]. eapply ch_clear; [exact E|constructor].
  - intros e t. destruct (solve_isa L HL mods Hd n e t b w l T) as (r & H1 & H2 & H3). exists r. rewrite (Hl e t) in *. auto.
  - intros s. destruct (C40_context_query L mods n s b w names HL C) as (r & H1 & H2 & H3).
    { apply Hd; [|reflexivity]. cbn. tauto. }
    exists r. rewrite (Hn s) in *. auto.
Qed.
Print Assumptions C97_types_last_until_they_are_cleared.

(** the relations of the module, for programs that call them by name *)
Theorem C97_relations_of_the_module :
  forall {W} (L : lens W conn) w,
    map (fun p => option_map (fun r => (r_pred r, r_cols r)) (dialog_context L w p)) ["dialog_isa"; "context"; "with_context"; "start_context"; "end_context"]
    = [Some ("dialog_isa", ["entity"; "type"]); Some ("context", ["name"]); Some ("with_context", ["name"; "body"]);
       Some ("start_context", ["name"]); Some ("end_context", ["name"])] /\
    forall p, ~ In p ["dialog_isa"; "context"; "with_context"; "start_context"; "end_context"] -> dialog_context L w p = None.
Proof.
  intros W L w. split; [reflexivity|]. intros p H. unfold dialog_context, dialog_relations. cbn [relation_get memory_relation memory_relation_with r_pred].
  cbn [In] in H. repeat match goal with |- context [String.eqb p ?s] => destruct (String.eqb_spec p s) as [->|]; [exfalso; apply H; tauto|] end.
  reflexivity.
Qed.
Print Assumptions C97_relations_of_the_module.

Example C97_types_example :
  one_dialog ex_conn ex_dialog /\ (forall w, only_core ex_dialog w "store") /\
  told "e1" "man" [Tell "e1" "man"; Context_ (Start "quest"); Tell "e2" "woman"] /\
  ~ told "e1" "man" [Tell "e1" "man"; Context_ Clear] /\
  fst (solve ex_dialog 5 (VList [VTuple [VStr "store"; VList [VTuple [VStr "dialog_isa"; VStr "e1"; VStr "man"]]];
                                 VTuple [VStr "dialog_isa"; VVar "E"; VVar "T"]]) [] ex_c0) = Ok (SList [[("E", VStr "e1"); ("T", VStr "man")]]).
Proof.
  split; [|split; [|split; [|split]]].
  - intros w p r Hr <-. cbn in Hr. repeat (destruct Hr as [<-|Hr]; [reflexivity|]). destruct Hr.
  - intros w. exists [dialog_context ex_conn]. split; [reflexivity|]. intros m [<-|[]]. reflexivity.
  - apply (told_later "e1" "man" [Tell "e1" "man"; Context_ (Start "quest")]); [|discriminate].
    apply (told_later "e1" "man" [Tell "e1" "man"]); [|discriminate]. apply (told_now "e1" "man" []).
  - intros H. apply (told_snoc "e1" "man" [Tell "e1" "man"]) in H as [[=]|[_ H]]. congruence.
  - vm_compute. reflexivity.
Qed.
