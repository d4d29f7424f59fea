(** * C58: the data sources are interchangeable *)

From Coq Require Import ZArith String Ascii List Bool Lia Arith.
From Verif Require Import Py PyFacts Effects InferenceModule DataSpec SimpleDataSource SimpleDataProofs Sql SqliteDataSource SqliteProofs SqliteProofs2
  ServerDataSource PropData.
Import ListNotations.
Local Open Scope nat_scope.
Local Open Scope string_scope.
Local Open Scope list_scope.

Notation "a ^^ b" := (String.append a b) (at level 60, right associativity).

(** texts without the characters that mean something to drivers *)
Fixpoint plain (s : string) : Prop :=
  match s with EmptyString => True | String c t => c <> "%"%char /\ c <> "?"%char /\ plain t end.

Lemma driver_plain s r : plain s -> driver_text (s ^^ r) = match driver_text r with Ok t => Ok (s ^^ t) | o => o end.
Proof.
  induction s as [|c s IH]; [cbn; destruct (driver_text r); reflexivity|]. intros (H1 & H2 & H3). cbn [String.append driver_text].
  apply Ascii.eqb_neq in H1. apply Ascii.eqb_neq in H2. rewrite H1, H2, IH by exact H3. now destruct (driver_text r).
Qed.
Lemma plain_app a b : plain a -> plain b -> plain (a ^^ b).
Proof. induction a as [|c a IH]; [auto|]. intros (H1 & H2 & H3) Hb. cbn. auto. Qed.
Lemma plain_join l : Forall plain l -> plain (join "," l).
Proof.
  induction 1 as [|a l Ha Hl IH]; [exact I|]. destruct l as [|b l]; [exact Ha|].
  change (join "," (a :: b :: l)) with (a ^^ "," ^^ join "," (b :: l))%string. apply plain_app; [exact Ha|]. apply plain_app; [|exact IH].
  split; [discriminate|]. split; [discriminate|exact I].
Qed.

Lemma app_assoc_text a b c : ((a ^^ b) ^^ c = a ^^ b ^^ c)%string.
Proof. induction a; cbn; congruence. Qed.

Lemma driver_where : forall columns values w vs w' vs' r,
  Forall plain columns -> (forall r, driver_text (w ^^ r) = match driver_text r with Ok t => Ok (w' ^^ t) | o => o end) ->
  driver_text (fst (where_loop "%s" w vs columns values) ^^ r)
  = match driver_text r with Ok t => Ok (fst (where_loop "?" w' vs' columns values) ^^ t) | o => o end.
Proof.
  induction columns as [|c columns IH]; intros [|v values] w vs w' vs' r Hc Hw; cbn [where_loop fst]; auto.
  inversion Hc as [|? ? Hc1 Hc2]; subst. destruct (is_none v); [apply IH; auto|]. apply IH; [exact Hc2|]. intros r0.
  rewrite !app_assoc_text, Hw.
  change (" AND " ^^ c ^^ "=" ^^ "%s" ^^ r0)%string with (" AND " ^^ (c ^^ "=" ^^ "%s" ^^ r0))%string.
  rewrite driver_plain by (cbn; repeat split; discriminate). rewrite driver_plain by exact Hc1.
  rewrite driver_plain by (cbn; repeat split; discriminate). cbn [String.append driver_text].
  change (Ascii.eqb "%" "%") with true. change (Ascii.eqb "s" "s") with true. cbn iota. destruct (driver_text r0); try reflexivity.
  rewrite !app_assoc_text. cbn [String.append]. rewrite ?app_assoc_text. reflexivity.
Qed.

Lemma driver_select t columns values : plain t -> Forall plain columns ->
  driver_text (select_text "%s" t columns values) = Ok (select_text "?" t columns values).
Proof.
  intros Ht Hc. unfold select_text.
  rewrite driver_plain by (cbn; repeat split; discriminate). rewrite driver_plain by (now apply plain_join).
  rewrite driver_plain by (cbn; repeat split; discriminate). rewrite driver_plain by exact Ht.
  rewrite driver_plain by (cbn; repeat split; discriminate).
  assert (E : forall s, (s ^^ "")%string = s) by (induction s; cbn; congruence).
  rewrite <- (E (fst (where_loop "%s" "TRUE" [] columns values))).
  rewrite (driver_where columns values "TRUE" [] "TRUE" [] "" Hc).
  - cbn [driver_text]. now rewrite E.
  - intros r. apply driver_plain. cbn; repeat split; discriminate.
Qed.

Lemma word_plain s : all_word s = true -> plain s.
Proof.
  induction s as [|c s IH]; cbn; [auto|]. intros H. apply andb_true_iff in H as (H1 & H2).
  split; [intros ->; discriminate H1|]. split; [intros ->; discriminate H1|auto].
Qed.

(** Every select on every database.  With names that have no percent sign or
    question mark, a server does what Sqlite does. *)
Theorem C58_servers_select_as_sqlite :
  forall t columns values c,
    (forall s, In s (t :: columns) -> forall n d, String.get n s = Some d -> d <> "%"%char /\ d <> "?"%char) ->
    server_select t columns values c = sq_select t columns values c.
Proof.
  intros t columns values c Hn.
  assert (P : forall s, (forall n d, String.get n s = Some d -> d <> "%"%char /\ d <> "?"%char) -> plain s).
  { induction s as [|a s IH]; [exact (fun _ => I)|]. intros H. destruct (H 0 a eq_refl) as (H1 & H2). split; [exact H1|]. split; [exact H2|].
    apply IH. intros n d Hd. exact (H (S n) d Hd). }
  unfold server_select. rewrite driver_select; [reflexivity| |].
  - apply P, Hn. now left.
  - apply Forall_forall. intros s Hs. apply P, Hn. now right.
Qed.
Print Assumptions C58_servers_select_as_sqlite.

(** the same facts, given to both *)
Definition told (facts : list (string * list string * list value)) : list ds_op :=
  map (fun f => OpInsert (fst (fst f)) (snd (fst f)) (snd f)) facts.
Definition stored (facts : list (string * list string * list value)) : list sq_op :=
  map (fun f => SqInsert (fst (fst f)) (snd (fst f)) (snd f)) facts.

Lemma same_records t facts : forall acc, records_since t (told facts) acc = remaining t (stored facts) acc.
Proof. induction facts as [|[[t' cs] vs] facts IH]; intros acc; cbn; [reflexivity|apply IH]. Qed.

(** Every list of facts with a value for each column that is asked for, every
    query.  A simple data source, Sqlite and the servers give the same rows, in
    the same order: those of the facts that have the given values. *)
Theorem C58_data_sources_are_interchangeable :
  forall d facts t x columns values,
    fresh_tables d -> Forall (op_ok d) (stored facts) ->
    db_get t d = Some x -> fits_table x t columns values -> NoDup columns ->
    (forall cs vs, In (t, cs, vs) facts -> NoDup cs /\ incl columns cs /\ ~ In VNone vs) ->
    exists rows c,
      sds_select t columns values (sds_after (told facts)) = Ok rows /\
      sq_run (stored facts) (mkConn d d) = (Ok tt, c) /\
      sq_select t columns values c = (Ok rows, c) /\
      server_select t columns values c = (Ok rows, c) /\
      forall row, In row rows <-> exists cs vs, In (t, cs, vs) facts /\ row = map (fun k => at_column k cs vs) columns /\
        Forall2 (fun k v => v = VNone \/ py_eq (at_column k cs vs) v = true) columns values.
Proof.
  intros d facts t x columns values Hd Ho Hx Hft Hnd Hfacts.
  destruct (C32_sqlite_is_a_list_of_records d (stored facts) t x columns values Hd Ho Hx Hft) as (c & Hrun & Hsel).
  exists (spec_select columns values (remaining t (stored facts) [])), c.
  assert (Rec : forall acc g, In g (remaining t (stored facts) acc) <-> In g acc \/ exists cs vs, In (t, cs, vs) facts /\ g = mkGiven cs vs).
  { clear. induction facts as [|[[t' cs] vs] facts IH]; intros acc g; cbn.
    - split; [auto|]. intros [H|(cs & vs & [] & _)]. exact H.
    - fold (stored facts). rewrite IH. destruct (String.eqb_spec t t') as [->|N].
      + rewrite in_app_iff. cbn. split.
        * intros [[H|[<-|[]]]|(cs' & vs' & H & ->)]; [auto|right; eauto|right; eauto].
        * intros [H|(cs' & vs' & [[= <- <-]|H] & ->)]; [auto|auto|right; eauto].
      + split; intros [H|(cs' & vs' & H & E)]; auto.
        * right. exists cs', vs'. auto.
        * destruct H as [[= E1 _ _]|H]; [congruence|]. right. eauto. }
  assert (Hlen : forall cs vs, In (t, cs, vs) facts -> length cs = length vs).
  { intros cs vs H. rewrite Forall_forall in Ho. destruct (Ho (SqInsert t cs vs)) as (y & _ & _ & F); [|destruct F; assumption].
    unfold stored. apply in_map_iff. exists (t, cs, vs). auto. }
  assert (Val : forall cs vs k, length cs = length vs -> In k cs -> ~ In VNone vs -> at_column k cs vs <> VNone).
  { clear. induction cs as [|c cs IH]; intros [|v vs] k L Hk Hn; try discriminate; [destruct Hk|]. cbn. destruct (String.eqb_spec k c) as [->|N].
    - intros ->. apply Hn. now left.
    - apply IH; [now injection L|destruct Hk; [congruence|assumption]|intros H; apply Hn; now right]. }
  split; [|split; [exact Hrun|split; [exact Hsel|split]]].
  - rewrite <- same_records. apply C30_simple_data_source_is_a_list_of_records; [exact Hnd|destruct Hft; assumption|].
    unfold records. rewrite same_records. intros g Hg. apply Rec in Hg as [[]|(cs & vs & Hin & ->)]. destruct (Hfacts cs vs Hin) as (H1 & H2 & H3).
    split; [exact H1|]. intros k Hk. unfold field. cbn. specialize (Val cs vs k (Hlen _ _ Hin) (H2 k Hk) H3). destruct (at_column k cs vs); auto; congruence.
  - rewrite C58_servers_select_as_sqlite; [exact Hsel|]. destruct Hft as [F1 F2 F3 F4 F5 F6].
    assert (W : forall s, all_word s = true -> forall n a, String.get n s = Some a -> a <> "%"%char /\ a <> "?"%char).
    { clear. induction s as [|a s IH]; intros H n b; cbn; [discriminate|]. cbn in H. apply andb_true_iff in H as (H1 & H2).
      destruct n as [|n]; [|now apply IH]. intros [= <-]. split; intros ->; discriminate H1. }
    intros s [<-|Hs]; apply W, name_word; auto.
  - intros row. unfold spec_select. rewrite in_map_iff. split.
    + intros (g & <- & Hg). apply filter_In in Hg as (Hg & Hf). apply Rec in Hg as [[]|(cs & vs & Hin & ->)]. exists cs, vs. split; [exact Hin|]. split; [reflexivity|].
      clear -Hf. unfold fits, field in Hf. cbn in Hf. revert values Hf. induction columns as [|k columns IH]; intros [|v values] Hf; try discriminate; constructor.
      * cbn in Hf. apply andb_true_iff in Hf as (Hf & _). apply orb_true_iff in Hf as [Hf|Hf]; [left; destruct v; auto; discriminate|auto].
      * cbn in Hf. apply andb_true_iff in Hf as (_ & Hf). auto.
    + intros (cs & vs & Hin & -> & Hf). exists (mkGiven cs vs). split; [reflexivity|]. apply filter_In. split; [apply Rec; right; eauto|].
      clear -Hf. unfold fits, field. cbn. induction Hf as [|k v columns values H Hf IH]; [reflexivity|]. cbn. rewrite IH, andb_true_r.
      destruct H as [->|H]; [reflexivity|]. now rewrite H, orb_true_r.
Qed.
Print Assumptions C58_data_sources_are_interchangeable.

(** Deviations: they differ on a table without facts that was never made, on
    facts without a value, and on names with a percent sign. *)
Theorem C58_differences_refuted :
  (forall t columns values c, sql_name t = true -> names columns -> columns <> [] -> forallb storable values = true ->
     db_get t (current c) = None ->
     sds_select t columns values [] = Ok [] /\ fst (sq_select t columns values c) = Exn DbErr) /\
  (exists d facts t columns values c,
     fresh_tables d /\ Forall (op_ok d) (stored facts) /\ sq_run (stored facts) (mkConn d d) = (Ok tt, c) /\
     sq_select t columns values c = (Ok [[VStr "ann"; VNone]], c) /\
     sds_select t columns values (sds_after (told facts)) = Exn KeyErr) /\
  (exists t columns values c, fst (server_select t columns values c) = Exn ValueErr).
Proof.
  split; [|split].
  - intros t columns values c Ht Hc Hn Hs Hd. split; [reflexivity|]. unfold sq_select, run_sql, execute. rewrite parse_select, select_params_spec by auto.
    rewrite storable_values by (now apply bound_vals_storable). cbn [run_stmt]. now rewrite Hd.
  - exists [("people", mkTbl ["name"; "age"] [] [])], [("people", ["name"; "age"], [VStr "ann"; VNone])], "people", ["name"; "age"], [VNone; VNone].
    eexists. split; [|split; [|split; [vm_compute; reflexivity|split; vm_compute; reflexivity]]].
    + intros t x. cbn. destruct (String.eqb t "people"); [intros [= <-]; reflexivity|discriminate].
    + constructor; [|constructor]. cbn. eexists. split; [reflexivity|]. split; [reflexivity|]. constructor; try reflexivity; [intros k [<-|[<-|[]]]; reflexivity|discriminate|intros k Hk; exact Hk].
  - exists "people", ["share%"], [VInt 1], (mkConn [] []). vm_compute. reflexivity.
Qed.
Print Assumptions C58_differences_refuted.

Example C58_example :
  let d := [("people", mkTbl ["name"; "age"] [] [])] in
  let facts := [("people", ["name"; "age"], [VStr "ann"; VInt 30]); ("people", ["age"; "name"], [VInt 31; VStr "o'neill"])] in
  fresh_tables d /\ Forall (op_ok d) (stored facts) /\
  (forall cs vs, In ("people", cs, vs) facts -> NoDup cs /\ incl ["age"; "name"] cs /\ ~ In VNone vs) /\
  let c := snd (sq_run (stored facts) (mkConn d d)) in
  fst (server_select "people" ["age"; "name"] [VNone; VStr "o'neill"] c) = Ok [[VInt 31; VStr "o'neill"]] /\
  sds_select "people" ["age"; "name"] [VNone; VStr "o'neill"] (sds_after (told facts)) = Ok [[VInt 31; VStr "o'neill"]].
Proof.
  cbn zeta. split; [|split; [|split; [|split; vm_compute; reflexivity]]].
  - intros t x. cbn. destruct (String.eqb t "people"); [intros [= <-]; reflexivity|discriminate].
  - repeat constructor; cbn; (eexists; split; [reflexivity|]; split; [reflexivity|];
      constructor; try reflexivity; [intros k [<-|[<-|[]]]; reflexivity|discriminate|intros k Hk; cbn in *; tauto]).
  - intros cs vs [[= <- <-]|[[= <- <-]|[]]]; (split; [repeat constructor; cbn; intuition discriminate|]);
      (split; [intros k Hk; cbn in *; tauto|cbn; intuition discriminate]).
Qed.
