(** * Facts about the statistics of the solver *)

From Coq Require Import ZArith QArith String List Bool Lia Arith.
From Verif Require Import Py PyFacts Effects EffectsFacts Solver Atoms CoreModule InferenceModule TableModule Stats.
Import ListNotations.
Local Close Scope Q_scope.
Local Open Scope nat_scope.
Local Open Scope list_scope.

Section Hides.
  Context {W : Type}.
  Notation V := (W * stats)%type.

  (** [m'] does what [m] does, whatever the statistics are *)
  Definition hides {A} (m' : M V A) (m : M W A) : Prop :=
    forall w st, exists st', m' (w, st) = (fst (m w), (snd (m w), st')).

  Definition hides_sv (sv' : solver_if V) (sv : solver_if W) : Prop :=
    (forall a b, hides (sv_solve sv' a b) (sv_solve sv a b)) /\
    (forall a, hides (sv_write sv' a) (sv_write sv a)).

  Definition hides_rel (r' : relation V) (r : relation W) : Prop :=
    r_pred r' = r_pred r /\ r_cols r' = r_cols r /\
    (forall sv' sv vals c, hides_sv sv' sv -> hides (r_query r' sv' vals c) (r_query r sv vals c)) /\
    match r_write r', r_write r with
    | Some f', Some f => forall sv' sv vals c, hides_sv sv' sv -> hides (f' sv' vals c) (f sv vals c)
    | None, None => True
    | _, _ => False
    end.

  Definition hides_module (m' : modul V) (m : modul W) : Prop :=
    forall w st p,
      match m' (w, st) p, m w p with
      | Some r', Some r => hides_rel r' r
      | None, None => True
      | _, _ => False
      end.

  Lemma hides_ret {A} (a : A) : hides (ret a) (ret a).
  Proof. intros w st. now exists st. Qed.
  Lemma hides_throw {A} e : hides (@throw V A e) (throw e).
  Proof. intros w st. now exists st. Qed.
  Lemma hides_no_fuel {A} : hides (@no_fuel V A) no_fuel.
  Proof. intros w st. now exists st. Qed.
  Lemma hides_put w st : hides (put (w, st)) (put w).
  Proof. intros w0 st0. now exists st. Qed.

  Lemma hides_bind {A B} (m' : M V A) (m : M W A) (f' : A -> M V B) (f : A -> M W B) :
    hides m' m -> (forall a, hides (f' a) (f a)) -> hides (bind m' f') (bind m f).
  Proof.
    intros Hm Hf w st. destruct (Hm w st) as (st1 & E). unfold bind. rewrite E.
    destruct (m w) as [[a|e|] w1]; cbn [fst snd]; [apply Hf| |]; now exists st1.
  Qed.

  Lemma hides_get {B} (f' : V -> M V B) (f : W -> M W B) :
    (forall w st, hides (f' (w, st)) (f w)) -> hides (bind get f') (bind get f).
  Proof. intros H w st. unfold bind, get. apply H. Qed.

  Lemma hides_foldM {A B} (f' : B -> A -> M V B) (f : B -> A -> M W B) l :
    (forall acc x, hides (f' acc x) (f acc x)) ->
    forall acc, hides (foldM f' acc l) (foldM f acc l).
  Proof.
    intros H. induction l as [|x l IH]; simpl; intros acc; [apply hides_ret|].
    apply hides_bind; auto.
  Qed.

  Lemma hides_or_throw {A} e (o : option A) : hides (or_throw e o) (or_throw e o).
  Proof. destruct o; [apply hides_ret|apply hides_throw]. Qed.
  Lemma hides_item l i : hides (item l i) (item l i).
  Proof. unfold item. destruct (nth_error l i); [apply hides_ret|apply hides_throw]. Qed.
  Lemma hides_name_of v : hides (name_of v) (name_of v).
  Proof. destruct v; first [apply hides_ret|apply hides_throw]. Qed.
  Lemma hides_lookup k b : hides (lookup k b) (lookup k b).
  Proof. unfold lookup. destruct (bget k b); [apply hides_ret|apply hides_throw]. Qed.
  Lemma hides_sres_items r : hides (sres_items r) (sres_items r).
  Proof. destruct r as [l|s [|n]]; first [apply hides_ret|apply hides_throw]. Qed.
  Lemma hides_subscript v i : hides (subscript v i) (subscript v i).
  Proof.
    unfold subscript. destruct v; try apply hides_throw.
    - destruct (String.get i s); [apply hides_ret|apply hides_throw].
    - destruct (nth_error l i); [apply hides_ret|apply hides_throw].
    - destruct (nth_error l i); [apply hides_ret|apply hides_throw].
  Qed.
  Lemma hides_atom_parts a : hides (atom_parts a) (atom_parts a).
  Proof.
    unfold atom_parts. destruct a as [| | | | | | |l|l|]; try apply hides_throw;
      destruct l; first [apply hides_ret|apply hides_throw].
  Qed.
  Lemma hides_match_args v b args : forall i r c,
    hides (match_args v b i args r c) (match_args v b i args r c).
  Proof.
    induction args as [|a args IH]; intros i r c; simpl; [apply hides_ret|].
    destruct a as [| | | | |x| | | |]; try (apply hides_bind; [apply hides_subscript|intros; apply IH]).
    destruct (bget x b); [apply IH|]. apply hides_bind; [apply hides_subscript|intros; apply IH].
  Qed.

  Ltac hide H :=
    intros; cbv beta zeta;
    lazymatch goal with
    | |- hides (ret _) _ => apply hides_ret
    | |- hides (throw _) _ => apply hides_throw
    | |- hides no_fuel _ => apply hides_no_fuel
    | |- hides (or_throw _ _) _ => apply hides_or_throw
    | |- hides (item _ _) _ => apply hides_item
    | |- hides (name_of _) _ => apply hides_name_of
    | |- hides (lookup _ _) _ => apply hides_lookup
    | |- hides (sres_items _) _ => apply hides_sres_items
    | |- hides (subscript _ _) _ => apply hides_subscript
    | |- hides (atom_parts _) _ => apply hides_atom_parts
    | |- hides (match_args _ _ _ _ _ _) _ => apply hides_match_args
    | |- hides (put _) _ => cbn [fst snd]; apply hides_put
    | |- hides (sv_solve _ _ _) _ => apply (proj1 H)
    | |- hides (sv_write _ _) _ => apply (proj2 H)
    | |- hides (bind get _) _ => apply hides_get; intros; cbn [fst snd]; hide H
    | |- hides (bind _ _) _ => apply hides_bind; [hide H|intros; hide H]
    | |- hides (foldM _ _ _) _ => apply hides_foldM; intros; hide H
    | |- hides (match ?x with _ => _ end) _ => destruct x; hide H
    | |- _ => idtac
    end.

  (** ** The modules *)
  Definition hides_query (q' : solver_if V -> list value -> ctx -> M V qres)
      (q : solver_if W -> list value -> ctx -> M W qres) : Prop :=
    forall sv' sv vals c, hides_sv sv' sv -> hides (q' sv' vals c) (q sv vals c).

  Lemma core_table_hides :
    Forall2 (fun kq' kq => fst kq' = fst kq /\ hides_query (snd kq') (snd kq)) (@core_table V) (@core_table W).
  Proof.
    unfold core_table.
    repeat (apply Forall2_cons; [split; [reflexivity|]; cbn [snd]; intros sv' sv vals c H;
      unfold q_equals, q_greater_than, q_less_than, q_multiply, q_arg_min, q_arg_max, q_arg, q_sum, q_avg,
           q_percentage, q_count, q_not, q_let, q_det_equals, q_det_greater_than, q_det_less_than, q_det,
           q_all, q_none, q_scoped, q_store, q_destructure, q_find_all, q_find_one, find_values, all_step,
           rows, sum_step, arg_step, unpack2, oset_add, entity_of, first_item; hide H; unfold find_step, combi_step, get_key; hide H|]);
      apply Forall2_nil.
  Qed.

  Lemma core_hides : hides_module (@core_module V) (@core_module W).
  Proof.
    intros w st p. unfold core_module.
    induction core_table_hides as [|[k' q'] [k q] t' t [Hk Hq] _ IH]; cbn [table_get]; [exact I|].
    cbn [fst snd] in *. subst k'. destruct (String.eqb p k); [|exact IH].
    repeat split; auto.
  Qed.

  Lemma inference_hides (L : lens W rulebase) : hides_module (inference_module (beside L)) (inference_module L).
  Proof.
    intros w st p. unfold inference_module. cbn [beside lget fst].
    destruct (rules_get p (lget L w)) as [rs|].
    - repeat split; auto. cbn [r_query]. intros sv' sv vals c H.
      unfold handle_rule, solve_rule. cbn [beside lget]. hide H.
    - destruct (String.eqb p "learn_rule"); [|exact I].
      repeat split; auto. cbn [r_query]. intros sv' sv vals c H.
      unfold learn_rule, insert_rule, unpack2. cbn [beside lget lset]. hide H.
  Qed.

  Lemma table_hides (tables : W -> string -> option (list (list value))) :
    hides_module (table_module (fun v => tables (fst v))) (table_module tables).
  Proof.
    intros w st p. unfold table_module. cbn [fst]. destruct (tables w p); [|exact I].
    repeat split; auto. cbn [r_query]. intros sv' sv vals c H. unfold table_query. hide H.
  Qed.

  (** ** The solver *)
  Variable mods' : list (modul V).
  Variable mods : list (modul W).
  Variable log : bool.
  Hypothesis Hmods : Forall2 hides_module mods' mods.

  Lemma find_relations_hides w st p :
    Forall2 hides_rel (find_relations mods' (w, st) p) (find_relations mods w p).
  Proof.
    unfold find_relations. revert Hmods. generalize mods' mods. clear. intros ms'.
    induction ms' as [|m' ms' IH]; intros ms H; inversion H as [|x m xs ms0 Hm Ht]; subst; simpl; [constructor|].
    specialize (Hm w st p). destruct (m' (w, st) p), (m w p); try contradiction; [constructor|]; auto.
  Qed.

  Lemma collect_hides sv' sv many rels' rels vals args b : hides_sv sv' sv -> Forall2 hides_rel rels' rels ->
    forall rs, hides (collect_rows sv' many rels' vals args b rs) (collect_rows sv many rels vals args b rs).
  Proof.
    intros H Hr. induction Hr as [|r' r t' t (Hp & Hc & Hq & _) _ IH]; intros rs; simpl; [apply hides_ret|].
    apply hides_bind; [rewrite Hp, Hc; now apply Hq|].
    intros [out|s k|]; [apply IH| |apply hides_throw]. rewrite Hp.
    destruct many; [apply hides_throw|apply hides_ret].
  Qed.

  Lemma write_rels_hides sv' sv rels' rels args : hides_sv sv' sv -> Forall2 hides_rel rels' rels ->
    hides (write_rels sv' rels' args) (write_rels sv rels args).
  Proof.
    intros H Hr. induction Hr as [|r' r t' t (Hp & Hc & _ & Hw) _ IH]; simpl; [apply hides_ret|].
    apply hides_bind; [|intros; exact IH]. rewrite Hp, Hc.
    destruct (r_write r'), (r_write r); try contradiction; [now apply Hw|apply hides_ret].
  Qed.

  Lemma disjuncts_hides sv' sv ds b : hides_sv sv' sv ->
    hides (solve_disjuncts sv' ds b) (solve_disjuncts sv ds b).
  Proof.
    intros H. induction ds as [|d ds IH]; simpl; [apply hides_ret|].
    apply hides_bind; [apply H|]. intros r. destruct (sres_len r); [exact IH|apply hides_ret].
  Qed.

  Lemma single_hides sv' sv atom b : hides_sv sv' sv ->
    hides (solve_single mods' sv' atom b) (solve_single mods sv atom b).
  Proof.
    intros H. unfold solve_single. apply hides_bind; [apply hides_atom_parts|]. intros [p args].
    destruct p; try apply hides_throw. destruct (String.eqb s DISJUNCTION).
    - destruct args as [|ds args]; [apply hides_throw|]. unfold solve_disjunction.
      destruct ds; try apply hides_throw; now apply disjuncts_hides.
    - unfold solve_relation. apply hides_bind.
      + unfold find_relation_values. apply hides_get. intros w st.
        pose proof (find_relations_hides w st s) as Hr. cbv zeta.
        assert (El : length (find_relations mods' (w, st) s) = length (find_relations mods w s)).
        { clear -Hr. induction Hr; simpl; congruence. }
        rewrite El. clear El.
        destruct Hr as [|r' r t' t Hr Ht]; [apply hides_throw|]. apply collect_hides; [exact H|now constructor].
      + intros [out|x k|]; [|apply hides_ret|apply hides_throw].
        unfold check_first_row, create_results. hide H.
  Qed.

  Lemma tick_ok p w st : exists st', @tick W log p (w, st) = (Ok tt, (w, st')).
  Proof. destruct p; try (now exists st). unfold tick. destruct log; eexists; reflexivity. Qed.

  Lemma single_s_hides sv' sv atom b : hides_sv sv' sv ->
    hides (solve_single_s mods' log sv' atom b) (solve_single mods sv atom b).
  Proof.
    intros H w st. unfold solve_single_s. destruct (hides_atom_parts atom w st) as (st1 & E).
    unfold bind at 1. rewrite E.
    destruct (atom_parts atom w) as [[pa|e|] w1] eqn:EW; cbn [fst snd].
    - assert (w1 = w) as ->.
      { clear -EW. unfold atom_parts in EW. destruct atom; try discriminate; destruct l; try discriminate;
          now injection EW. }
      destruct (tick_ok (fst pa) w st1) as (st2 & E2). unfold bind at 1. rewrite E2.
      now apply single_hides.
    - exists st1. f_equal; unfold solve_single; unfold bind; now rewrite EW.
    - exists st1. f_equal; unfold solve_single; unfold bind; now rewrite EW.
  Qed.

  Lemma atoms_s_hides sv' sv atoms : hides_sv sv' sv ->
    forall b, hides (solve_atoms_s mods' log sv' atoms b) (solve_atoms mods sv atoms b).
  Proof.
    intros H. induction atoms as [|a atoms IH]; intros b; [apply hides_ret|].
    destruct atoms as [|a2 atoms].
    - now apply single_s_hides.
    - change (solve_atoms mods sv (a :: a2 :: atoms) b) with
        (bind (solve_single mods sv a b) (fun r => bind (sres_items r) (fun bindings =>
         bind (foldM (fun acc b' => bind (solve_atoms mods sv (a2 :: atoms) b') (fun rr =>
                bind (sres_items rr) (fun rs => ret (fold_left add_binding rs acc)))) [] bindings)
              (fun result => ret (SList result))))).
      change (solve_atoms_s mods' log sv' (a :: a2 :: atoms) b) with
        (bind (solve_single_s mods' log sv' a b) (fun r => bind (sres_items r) (fun bindings =>
         bind (foldM (fun acc b' => bind (solve_atoms_s mods' log sv' (a2 :: atoms) b') (fun rr =>
                bind (sres_items rr) (fun rs => ret (fold_left add_binding rs acc)))) [] bindings)
              (fun result => ret (SList result))))).
      apply hides_bind; [now apply single_s_hides|]. intros r.
      apply hides_bind; [apply hides_sres_items|]. intros bs.
      apply hides_bind; [|intros; apply hides_ret].
      apply hides_foldM. intros acc x. apply hides_bind; [apply IH|intros; hide H].
  Qed.

  Lemma solver_s_hides n : hides_sv (solver_at_s mods' log n) (solver_at mods n).
  Proof.
    induction n as [|n IH]; [split; intros; apply hides_no_fuel|].
    split; cbn [solver_at_s solver_at sv_solve sv_write].
    - intros a b. destruct a; try apply hides_throw. now apply atoms_s_hides.
    - intros a. unfold write_F. apply hides_bind; [apply hides_atom_parts|]. intros [p args].
      destruct p; try apply hides_throw. apply hides_get. intros w st.
      destruct (find_relations_hides w st s) as [|r' r t' t Hr Ht]; [apply hides_throw|].
      apply write_rels_hides; [exact IH|now constructor].
  Qed.
End Hides.
