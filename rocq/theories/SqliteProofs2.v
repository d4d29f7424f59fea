(** * The Sqlite data source behaves like lists of records *)

From Coq Require Import ZArith String Ascii List Bool Lia Arith.
From Verif Require Import Py PyFacts Effects EffectsFacts InferenceModule Sql SqliteDataSource DataSpec SimpleDataProofs SqliteProofs.
Import ListNotations.
Local Open Scope string_scope.
Local Open Scope list_scope.

(** ** histories *)
Inductive sq_op : Type :=
| SqInsert (t : string) (columns : list string) (values : list value)
| SqDelete (t : string) (columns : list string) (values : list value).

Definition sq_do (o : sq_op) : M conn unit :=
  match o with SqInsert t cs vs => sq_insert t cs vs | SqDelete t cs vs => sq_delete t cs vs end.
Fixpoint sq_run (h : list sq_op) : M conn unit :=
  match h with [] => ret tt | o :: h' => bind (sq_do o) (fun _ => sq_run h') end.

(** the record has each of the values; a NULL is equal to nothing *)
Definition has_all (columns : list string) (values : list value) (g : given) : bool :=
  forall2b (fun c v => negb (is_none v) && py_eq (field g c) v) columns values.

(** the records of table [t] that are left *)
Fixpoint remaining (t : string) (h : list sq_op) (acc : list given) : list given :=
  match h with
  | [] => acc
  | SqInsert t' cs vs :: h' => remaining t h' (if String.eqb t t' then acc ++ [mkGiven cs vs] else acc)
  | SqDelete t' cs vs :: h' =>
      remaining t h' (if String.eqb t t' then filter (fun g => negb (has_all cs vs g)) acc else acc)
  end.

(** a value that can be stored as it is *)
Definition storable (v : value) : bool :=
  match v with VNone | VInt _ | VFloat _ | VStr _ => true | _ => false end.

(** the operation is about a table of the database and some of its columns *)
Record fits_table (x : tbl) (t : string) (columns : list string) (values : list value) : Prop := {
  ft_name : sql_name t = true;
  ft_names : forall c, In c columns -> sql_name c = true;
  ft_some : columns <> [];
  ft_len : length columns = length values;
  ft_incl : incl columns (t_cols x);
  ft_vals : forallb storable values = true
}.
Definition op_table (o : sq_op) : string := match o with SqInsert t _ _ | SqDelete t _ _ => t end.
Definition op_ok (d0 : sqldb) (o : sq_op) : Prop :=
  match o with SqInsert t cs vs | SqDelete t cs vs =>
    exists x, db_get t d0 = Some x /\ t_unique x = [] /\ fits_table x t cs vs end.

Lemma cell_field c cols vals : cell cols vals c = at_column c cols vals.
Proof. revert vals. induction cols as [|k cols IH]; intros [|v vals]; simpl; auto. now rewrite IH. Qed.

Definition row_of (cols : list string) (g : given) : list value := map (field g) cols.

Lemma cell_row_of cols g c : In c cols -> cell cols (row_of cols g) c = field g c.
Proof.
  induction cols as [|k cols IH]; intros H; [destruct H|]. simpl. destruct (String.eqb_spec c k); [now subst|].
  apply IH. destruct H; congruence.
Qed.

Lemma storable_value v : storable v = true -> sql_value v = Some v.
Proof. destruct v; simpl; auto; discriminate. Qed.
Lemma storable_values l : forallb storable l = true -> sql_values l = Some l.
Proof.
  induction l as [|v l IH]; simpl; auto. intros H. apply andb_true_iff in H as [H1 H2].
  now rewrite storable_value, IH.
Qed.

Lemma sql_eq_nonnull a v : is_none v = false -> sql_eq a v = py_eq a v.
Proof. intros H. unfold sql_eq. rewrite H. destruct a; simpl; auto; destruct v; auto; discriminate. Qed.

Lemma where_fits cols g columns : forall values, length columns = length values -> incl columns cols ->
  where_ok cols (bound_cols columns values) (bound_vals columns values) (row_of cols g) = fits columns values g.
Proof.
  unfold where_ok, fits, bound_cols, bound_vals.
  induction columns as [|c columns IH]; intros [|v values] Hl Hi; try discriminate; auto. simpl.
  assert (incl columns cols) by (intros x Hx; apply Hi; now right). injection Hl as Hl.
  destruct (is_none v) eqn:E; simpl; [now apply IH|].
  rewrite cell_row_of by (apply Hi; now left). rewrite sql_eq_nonnull by auto. f_equal. now apply IH.
Qed.
Lemma where_has_all cols g columns : forall values, length columns = length values -> incl columns cols ->
  where_ok cols columns values (row_of cols g) = has_all columns values g.
Proof.
  unfold where_ok, has_all.
  induction columns as [|c columns IH]; intros [|v values] Hl Hi; try discriminate; auto. simpl.
  assert (incl columns cols) by (intros x Hx; apply Hi; now right). injection Hl as Hl.
  rewrite cell_row_of by (apply Hi; now left). f_equal; [|now apply IH].
  destruct (is_none v) eqn:E; simpl; [|now apply sql_eq_nonnull].
  unfold sql_eq. rewrite E. simpl. now rewrite andb_false_r.
Qed.

Lemma bound_vals_storable columns : forall values, forallb storable values = true ->
  forallb storable (bound_vals columns values) = true.
Proof.
  unfold bound_vals. induction columns as [|c columns IH]; intros [|v values] H; auto. simpl in *.
  apply andb_true_iff in H as [H1 H2]. destruct (is_none v); simpl; [auto|]. rewrite H1. simpl. now apply IH.
Qed.

Lemma has_cols cols l : incl l cols -> forallb (has_col cols) l = true.
Proof.
  intros H. apply forallb_forall. intros c Hc. unfold has_col. apply existsb_exists. exists c.
  split; [now apply H|apply String.eqb_refl].
Qed.

Lemma db_get_put t t' x d : db_get t (db_put t' x d) =
  if String.eqb t t' then (match db_get t d with Some _ => Some x | None => None end) else db_get t d.
Proof.
  induction d as [|[k y] d IH]; simpl.
  - now destruct (String.eqb t t').
  - destruct (String.eqb_spec t' k); simpl.
    + subst. destruct (String.eqb t k); reflexivity.
    + destruct (String.eqb_spec t k); simpl.
      * subst. destruct (String.eqb_spec k t'); [congruence|reflexivity].
      * apply IH.
Qed.

(** ** the three statements *)
Section Ops.
  Variables (t : string) (x : tbl) (columns : list string) (values : list value).
  Hypothesis Hft : fits_table x t columns values.

  Lemma sq_select_run gs c : db_get t (current c) = Some x -> t_rows x = map (row_of (t_cols x)) gs ->
    sq_select t columns values c = (Ok (spec_select columns values gs), mkConn (committed c) (current c)).
  Proof.
    destruct Hft as [H1 H2 H3 H4 H5 H6]. intros Hd Hr. unfold sq_select, run_sql, execute.
    rewrite parse_select, select_params_spec by auto.
    rewrite storable_values by (now apply bound_vals_storable). cbn [run_stmt]. rewrite Hd.
    rewrite has_cols by (apply incl_app; auto; intros y Hy; apply H5; eapply bound_cols_incl; eauto).
    unfold bound_cols, bound_vals at 1. rewrite !map_length, Nat.eqb_refl. cbn [andb].
    f_equal. f_equal. rewrite Hr. unfold spec_select. clear Hr Hd.
    induction gs as [|g gs IH]; simpl; auto. fold (bound_cols columns values). rewrite where_fits by auto.
    destruct (fits columns values g); simpl; [|apply IH]. f_equal; [|apply IH].
    apply map_ext_in. intros c' Hc. apply cell_row_of. auto.
  Qed.

  Lemma sq_insert_run gs c : db_get t (current c) = Some x -> t_unique x = [] -> t_rows x = map (row_of (t_cols x)) gs ->
    sq_insert t columns values c
    = (Ok tt, mkConn (committed c)
                (db_put t (mkTbl (t_cols x) (t_unique x) (map (row_of (t_cols x)) (gs ++ [mkGiven columns values]))) (current c))).
  Proof.
    destruct Hft as [H1 H2 H3 H4 H5 H6]. intros Hd Hu Hr. unfold sq_insert, run_sql, execute, bind.
    assert (values <> []) by (intros ->; destruct columns; [congruence|discriminate]).
    rewrite parse_insert, storable_values by auto. cbn [run_stmt]. rewrite Hd.
    rewrite has_cols by auto. rewrite <- H4, !Nat.eqb_refl. cbn [andb].
    unfold conflicts. rewrite Hu. cbn [existsb]. unfold ret. do 4 f_equal.
    rewrite map_app, Hr. f_equal. simpl. f_equal. unfold row_of. apply map_ext. intros k. apply cell_field.
  Qed.

  Lemma sq_delete_run gs c : db_get t (current c) = Some x -> t_rows x = map (row_of (t_cols x)) gs ->
    sq_delete t columns values c
    = (Ok tt, mkConn (committed c)
                (db_put t (mkTbl (t_cols x) (t_unique x)
                   (map (row_of (t_cols x)) (filter (fun g => negb (has_all columns values g)) gs))) (current c))).
  Proof.
    destruct Hft as [H1 H2 H3 H4 H5 H6]. intros Hd Hr. unfold sq_delete, run_sql, execute, bind.
    rewrite parse_delete, storable_values by auto. cbn [run_stmt]. rewrite Hd.
    rewrite has_cols by auto. rewrite <- H4, !Nat.eqb_refl. cbn [andb]. unfold ret. do 4 f_equal.
    rewrite Hr. clear Hr Hd. induction gs as [|g gs IH]; simpl; auto. rewrite where_has_all by auto.
    destruct (has_all columns values g); simpl; [apply IH|]. now rewrite IH.
  Qed.
End Ops.

(** the tables hold the records [recs] *)
Definition holds (d0 d : sqldb) (recs : string -> list given) : Prop :=
  forall t, match db_get t d0 with
            | Some x => db_get t d = Some (mkTbl (t_cols x) (t_unique x) (map (row_of (t_cols x)) (recs t)))
            | None => db_get t d = None
            end.

Lemma sq_run_spec d0 h : forall c recs, holds d0 (current c) recs -> Forall (op_ok d0) h ->
  exists c', sq_run h c = (Ok tt, c') /\ committed c' = committed c /\
    holds d0 (current c') (fun t => remaining t h (recs t)).
Proof.
  induction h as [|o h IH]; intros c recs Hh Ho.
  - exists c. repeat split; auto.
  - inversion Ho as [|? ? Ho1 Ho2]; subst. destruct o as [t cs vs|t cs vs]; destruct Ho1 as (x & Hx & Hu & Hft);
      pose proof (Hh t) as Ht; rewrite Hx in Ht; cbn [sq_run sq_do].
    + assert (Hft' : fits_table (mkTbl (t_cols x) (t_unique x) (map (row_of (t_cols x)) (recs t))) t cs vs)
        by (destruct Hft; constructor; auto).
      unfold bind. rewrite (sq_insert_run t _ cs vs Hft' (recs t) c Ht Hu eq_refl).
      match goal with |- exists c', sq_run h ?c1 = _ /\ _ => destruct (IH c1 (fun t' => if String.eqb t' t then recs t' ++ [mkGiven cs vs] else recs t')) as (c' & H1 & H2 & H3); auto end.
      2:{ exists c'. repeat split; auto. }
      intros t'. cbn [current]. pose proof (Hh t') as Ht'. rewrite db_get_put. cbn [t_cols t_unique].
      destruct (String.eqb_spec t' t).
      * subst. rewrite Hx, Ht. reflexivity.
      * exact Ht'.
    + assert (Hft' : fits_table (mkTbl (t_cols x) (t_unique x) (map (row_of (t_cols x)) (recs t))) t cs vs)
        by (destruct Hft; constructor; auto).
      unfold bind. rewrite (sq_delete_run t _ cs vs Hft' (recs t) c Ht eq_refl).
      match goal with |- exists c', sq_run h ?c1 = _ /\ _ => destruct (IH c1 (fun t' => if String.eqb t' t then filter (fun g => negb (has_all cs vs g)) (recs t') else recs t')) as (c' & H1 & H2 & H3); auto end.
      2:{ exists c'. repeat split; auto. }
      intros t'. cbn [current]. pose proof (Hh t') as Ht'. rewrite db_get_put. cbn [t_cols t_unique].
      destruct (String.eqb_spec t' t).
      * subst. rewrite Hx, Ht. reflexivity.
      * exact Ht'.
Qed.
