From Coq Require Import ZArith String List Bool Lia Arith.
From Verif Require Import Py PyFacts Effects SimpleDataSource DataSpec.
Import ListNotations.
Local Open Scope list_scope.

Definition sds_do (s : sds_store) (o : ds_op) : sds_store :=
  match o with OpInsert t cs vs => sds_insert t cs vs s | OpClear => sds_clear s end.
Definition sds_after (h : list ds_op) : sds_store := fold_left sds_do h [].

Lemma sds_get_put t t' rs s : sds_get t (sds_put t' rs s) = if String.eqb t t' then Some rs else sds_get t s.
Proof.
  induction s as [|[k r] s IH]; simpl.
  - destruct (String.eqb_spec t t'); reflexivity.
  - destruct (String.eqb_spec t' k); simpl.
    + subst. destruct (String.eqb_spec t k); reflexivity.
    + rewrite IH. destruct (String.eqb_spec t k); auto. subst. destruct (String.eqb_spec k t'); congruence.
Qed.

Definition given_dict (g : given) : binding := create_dict (g_cols g) (g_vals g).
Definition opt_records (o : option (list binding)) : list binding := match o with Some l => l | None => [] end.

Lemma sds_get_insert t t' cs vs s :
  opt_records (sds_get t (sds_insert t' cs vs s))
  = opt_records (sds_get t s) ++ (if String.eqb t t' then [create_dict cs vs] else []).
Proof.
  unfold sds_insert. destruct (sds_get t' s) eqn:E; rewrite sds_get_put;
    destruct (String.eqb_spec t t'); subst; simpl; rewrite ?app_nil_r; auto; now rewrite E.
Qed.

Lemma sds_history t h : forall s acc,
  opt_records (sds_get t s) = map given_dict acc ->
  opt_records (sds_get t (fold_left sds_do h s)) = map given_dict (records_since t h acc).
Proof.
  induction h as [|[t' cs vs|] h IH]; intros s acc H; simpl; auto.
  apply IH. rewrite sds_get_insert, H. destruct (String.eqb t t'); [now rewrite map_app|now rewrite app_nil_r].
Qed.

Lemma sds_after_records t h : opt_records (sds_get t (sds_after h)) = map given_dict (records t h).
Proof. now apply sds_history. Qed.

Lemma create_dict_get c cols : forall vals d, NoDup cols ->
  bget c (create_dict_from d cols vals)
  = if is_none (at_column c cols vals) then bget c d else Some (at_column c cols vals).
Proof.
  induction cols as [|k cols IH]; intros vals d Hn; simpl; auto.
  destruct vals as [|v vals]; simpl; auto. inversion Hn; subst. rewrite IH by auto.
  destruct (String.eqb_spec c k).
  - subst. assert (Hc : at_column k cols vals = VNone).
    { clear -H1. revert vals. induction cols as [|k' cols IH]; intros [|v vals]; simpl; auto.
      destruct (String.eqb_spec k k'); [subst; exfalso; apply H1; now left|]. apply IH. intros F. apply H1. now right. }
    rewrite Hc. simpl. destruct v; simpl; auto; apply bget_bset_same.
  - destruct (is_none (at_column c cols vals)); auto.
    destruct (is_none v); auto. apply bget_bset_other. congruence.
Qed.

Lemma given_dict_get g c : NoDup (g_cols g) ->
  bget c (given_dict g) = if is_none (field g c) then None else Some (field g c).
Proof. intros H. unfold given_dict, create_dict. rewrite create_dict_get by auto. reflexivity. Qed.

(** the items of the dict of the query *)
Fixpoint pattern (cols : list string) (vals : list value) : list (string * value) :=
  match cols, vals with
  | c :: cols', v :: vals' => if is_none v then pattern cols' vals' else (c, v) :: pattern cols' vals'
  | _, _ => []
  end.
Lemma bset_new k v d : ~ In k (map fst d) -> bset k v d = d ++ [(k, v)].
Proof.
  induction d as [|[k' v'] d IH]; simpl; auto. intros H. destruct (String.eqb_spec k k').
  - subst. exfalso. apply H. now left.
  - rewrite IH; auto.
Qed.
Lemma create_dict_pattern cols : forall vals d, NoDup cols -> (forall c, In c cols -> ~ In c (map fst d)) ->
  create_dict_from d cols vals = d ++ pattern cols vals.
Proof.
  induction cols as [|k cols IH]; intros vals d Hn Hd; simpl; [now rewrite app_nil_r|].
  destruct vals as [|v vals]; [now rewrite app_nil_r|]. inversion Hn; subst. destruct (is_none v) eqn:E.
  - apply IH; auto. intros; apply Hd. now right.
  - rewrite bset_new by (apply Hd; now left). rewrite IH; auto.
    + now rewrite <- app_assoc.
    + intros c Hc. rewrite map_app, in_app_iff. intros [F|[F|[]]]; [eapply Hd; eauto; now right|simpl in F; congruence].
Qed.

Lemma record_ok_fits g columns : forall values, NoDup (g_cols g) -> length columns = length values ->
  (forall c, In c columns -> is_none (field g c) = false) ->
  sds_record_ok (pattern columns values) (given_dict g) = fits columns values g.
Proof.
  induction columns as [|c columns IH]; intros [|v values] Hn Hl Hf; try discriminate; auto.
  simpl. unfold sds_record_ok, fits in *. simpl. injection Hl as Hl.
  assert (Hc : is_none (field g c) = false) by (apply Hf; now left).
  assert (Hrest : forall c0, In c0 columns -> is_none (field g c0) = false) by (intros; apply Hf; now right).
  destruct (is_none v) eqn:E; simpl.
  - now apply IH.
  - rewrite given_dict_get, Hc by auto. f_equal. now apply IH.
Qed.

Lemma sds_row_fields g columns : NoDup (g_cols g) -> (forall c, In c columns -> is_none (field g c) = false) ->
  sds_row (given_dict g) columns = Ok (map (field g) columns).
Proof.
  intros Hn. induction columns as [|c columns IH]; intros Hf; simpl; auto.
  rewrite given_dict_get, (Hf c) by (simpl; auto). rewrite IH; auto. intros; apply Hf; now right.
Qed.

Lemma sds_rows_spec columns values gs : length columns = length values ->
  (forall g, In g gs -> NoDup (g_cols g) /\ forall c, In c columns -> is_none (field g c) = false) ->
  sds_rows (pattern columns values) columns (map given_dict gs) = Ok (spec_select columns values gs).
Proof.
  intros Hl. induction gs as [|g gs IH]; intros Hg; simpl; auto.
  destruct (Hg g) as [Hn Hf]; [now left|]. rewrite record_ok_fits by auto. unfold spec_select in *. simpl.
  rewrite IH by (intros; apply Hg; now right).
  destruct (fits columns values g); auto. now rewrite sds_row_fields by auto.
Qed.

Lemma sds_select_spec t columns values h :
  NoDup columns -> length columns = length values ->
  (forall g, In g (records t h) -> NoDup (g_cols g) /\ forall c, In c columns -> is_none (field g c) = false) ->
  sds_select t columns values (sds_after h) = Ok (spec_select columns values (records t h)).
Proof.
  intros Hn Hl Hg. unfold sds_select. pose proof (sds_after_records t h) as H.
  destruct (sds_get t (sds_after h)) as [rs|]; simpl in H.
  - rewrite H. unfold create_dict. rewrite create_dict_pattern by auto. now apply sds_rows_spec.
  - destruct (records t h); [reflexivity|discriminate].
Qed.

(** a missing value makes the record unreadable *)
Lemma sds_row_missing r columns c : In c columns -> bget c r = None -> sds_row r columns = Exn KeyErr.
Proof.
  induction columns as [|k columns IH]; intros Hin Hg; [destruct Hin|]. simpl.
  destruct (bget k r) eqn:E; auto. destruct Hin as [->|Hin]; [congruence|]. now rewrite IH.
Qed.
Lemma sds_rows_missing values columns rs r : In r rs -> sds_record_ok values r = true -> sds_row r columns = Exn KeyErr ->
  sds_rows values columns rs = Exn KeyErr.
Proof.
  induction rs as [|r' rs IH]; intros Hin Ho Hr; [destruct Hin|]. simpl.
  assert (Hk : forall r0, (exists row, sds_row r0 columns = Ok row) \/ sds_row r0 columns = Exn KeyErr).
  { intros r0. clear. induction columns as [|k cs IH]; simpl; [left; eauto|].
    destruct (bget k r0); [|now right]. destruct IH as [[row ->]| ->]; eauto. }
  destruct Hin as [->|Hin]; [now rewrite Ho, Hr|]. rewrite (IH Hin Ho Hr).
  destruct (sds_record_ok values r'); [|reflexivity]. destruct (Hk r') as [[row E]|E]; now rewrite E.
Qed.
Lemma pattern_In c v cols : forall vals, In (c, v) (pattern cols vals) -> In (c, v) (combine cols vals) /\ is_none v = false.
Proof.
  induction cols as [|k cols IH]; intros [|w vals] H; try (destruct H; fail). simpl in *.
  destruct (is_none w) eqn:E; [destruct (IH _ H); auto|]. destruct H as [H|H]; [injection H as -> ->; auto|].
  destruct (IH _ H); auto.
Qed.
Lemma create_dict_nones columns : forall d n, create_dict_from d columns (repeat VNone n) = d.
Proof. induction columns as [|c columns IH]; intros d [|n]; simpl; auto. Qed.

(** ** CSV *)
Section Csv.
  Context {W : Type}.
  Variable insert : string -> list string -> list value -> M W unit.
  (** the inserts one after the other *)
  Fixpoint inserts (t : string) (headers : list string) (rows : list (list value)) : M W unit :=
    match rows with
    | [] => ret tt
    | r :: rest => bind (insert t headers r) (fun _ => inserts t headers rest)
    end.
  Definition nonempty {A} (l : list A) : bool := match l with [] => false | _ => true end.
  Definition texts (l : list string) : list value := map VStr l.

  Lemma csv_values_firstn hs : forall row, csv_values hs row = texts (firstn (length hs) row).
  Proof. induction hs as [|h hs IH]; intros [|e es]; simpl; auto. now rewrite IH. Qed.

  Lemma csv_loop_rows t rows : forall k hs w,
    csv_loop insert t (S k) hs rows w
    = inserts t hs (map (fun r => texts (firstn (length hs) r)) (filter nonempty rows)) w.
  Proof.
    induction rows as [|row rows IH]; intros k hs w; simpl; auto.
    destruct row as [|e es]; [apply IH|]. cbn [nonempty map inserts].
    rewrite csv_values_firstn. unfold bind. destruct (insert t hs _ w) as [[]?]; auto.
  Qed.
End Csv.
