(** * Properties C26-C28: effects of queries, recursion limit, ResultIterator *)

From Coq Require Import ZArith QArith String Ascii List Bool Lia Arith.
From Verif Require Import Py PyFacts Effects EffectsFacts Solver SolverProofs Atoms CoreModule InferenceModule TableModule
  DatalogSpec DatalogProofs ReadOnlyProofs FuelProofs ResultIterator ExampleWorld.
Import ListNotations.
Local Close Scope Q_scope.
Local Open Scope nat_scope.
Local Open Scope string_scope.
Local Open Scope list_scope.

(** ** C26 *)

(** the predicates that change data *)
Definition writers : list string := ["store"; "learn_rule"].

Lemma str_append_length a b : String.length (a ++ b) = String.length a + String.length b.
Proof. induction a; simpl; auto. Qed.
Lemma str_append_nil a : (a ++ "")%string = a.
Proof. induction a; simpl; congruence. Qed.
Lemma str_repeat_length n s : String.length (str_repeat n s) = n * String.length s.
Proof. induction n; simpl; auto. now rewrite str_append_length, IHn. Qed.

Lemma writers_rootless : rootless writers.
Proof.
  intros n s H.
  destruct n as [|[|n]].
  - destruct H as [H|[H|[]]]; discriminate.
  - simpl in H. now rewrite str_append_nil in H.
  - exfalso.
    assert (Hl : String.length (str_repeat (S (S n)) s) = 5 \/ String.length (str_repeat (S (S n)) s) = 10)
      by (destruct H as [H|[H|[]]]; rewrite <- H; auto).
    rewrite str_repeat_length in Hl.
    (* the word would start with the same letters twice *)
    assert (Hp : exists t, str_repeat (S (S n)) s = (s ++ (s ++ t))%string) by (eexists; reflexivity).
    destruct Hp as (t & Ht). rewrite Ht in H.
    destruct s as [|c1 s]; [destruct H as [H|[H|[]]]; simpl in Hl; lia|].
    destruct s as [|c2 s]; [simpl in H; destruct H as [H|[H|[]]]; congruence|].
    destruct s as [|c3 s]; [simpl in H; destruct H as [H|[H|[]]]; congruence|].
    destruct s as [|c4 s]; [simpl in H; destruct H as [H|[H|[]]]; congruence|].
    destruct s as [|c5 s]; [simpl in H; destruct H as [H|[H|[]]]; congruence|].
    destruct s as [|c6 s]; [simpl in H; destruct H as [H|[H|[]]]; congruence|].
    simpl in Hl. lia.
Qed.

(** [v] mentions no writing predicate, at any depth *)
Definition reads_only : value -> Prop := free_of writers.

Theorem C26_read_only_queries :
  forall (W : Type) (L : lens W rulebase) tables (w : W) n atoms b,
    (forall p rs r, rules_get p (lget L w) = Some rs -> In r rs ->
       Forall reads_only (ru_head r) /\ reads_only (ru_body r)) ->
    (forall p rows, tables w p = Some rows -> Forall (Forall reads_only) rows) ->
    reads_only atoms -> (forall k v, bget k b = Some v -> reads_only v) ->
    snd (solve [core_module; inference_module L; table_module tables] n atoms b w) = w.
Proof.
  intros W L tables w n atoms b Hr Ht Ha Hb.
  assert (Hm : forall m, In m [core_module; inference_module L; table_module tables] -> ro_module writers w m).
  { intros m [<-|[<-|[<-|[]]]].
    - apply core_ro; [apply writers_rootless|now left].
    - apply inference_ro; [right; now left|exact Hr].
    - now apply table_ro. }
  exact (proj1 (solver_ro writers w _ Hm n atoms b Ha Hb)).
Qed.
Print Assumptions C26_read_only_queries.

(** the same for a model with any further modules whose relations only read *)
Theorem C26_read_only_modules :
  forall (W : Type) (mods : list (modul W)) (w : W) n atoms b,
    (forall m, In m mods -> ro_module writers w m) ->
    reads_only atoms -> (forall k v, bget k b = Some v -> reads_only v) ->
    snd (solve mods n atoms b w) = w.
Proof. intros W mods w n atoms b Hm Ha Hb. exact (proj1 (solver_ro writers w _ Hm n atoms b Ha Hb)). Qed.
Print Assumptions C26_read_only_modules.

Fixpoint free_of_b (ban : list string) (v : value) : bool :=
  match v with
  | VStr s => negb (existsb (String.eqb s) ban)
  | VTuple l | VList l => forallb (free_of_b ban) l
  | VTmpl _ _ => false
  | _ => true
  end.
Lemma free_of_b_ok ban v : free_of_b ban v = true -> free_of ban v.
Proof.
  induction v using value_ind'; simpl; intros Hv; try constructor; try discriminate.
  - intros Hin. apply negb_true_iff in Hv. assert (existsb (String.eqb s) ban = true); [|congruence].
    apply existsb_exists. exists s. split; auto. apply String.eqb_refl.
  - rewrite forallb_forall in Hv. rewrite Forall_forall in *. auto.
  - rewrite forallb_forall in Hv. rewrite Forall_forall in *. auto.
Qed.

(** nested queries over the family satisfy the hypotheses... *)
Example C26_hypotheses :
  let q := VList [A "count" [V "N"; VList [A "ancestor" [S_ "ann"; V "X"]; A "not" [VList [A "age" [V "X"; V "Y"]]]]]] in
  (forall p rs r, rules_get p (lget ex_lens family) = Some rs -> In r rs ->
     Forall reads_only (ru_head r) /\ reads_only (ru_body r)) /\
  (forall p rows, ex_tables family p = Some rows -> Forall (Forall reads_only) rows) /\
  reads_only q /\
  answers (solve ex_mods 6 q [] family) = Some [[("N", VInt 2)]].
Proof.
  cbv zeta. split; [|split; [|split]].
  - intros p rs r H Hin. change (lget ex_lens family) with (fst family) in H.
    simpl in H. destruct (String.eqb p "ancestor"); [|discriminate]. injection H as <-.
    destruct Hin as [<-|[<-|[]]]; split; repeat constructor; simpl; intuition discriminate.
  - intros p rows H. unfold ex_tables, family in H. simpl in H.
    destruct (String.eqb p "parent"); [injection H as <-|destruct (String.eqb p "age"); [injection H as <-|discriminate]];
      repeat constructor; simpl; intuition discriminate.
  - now apply free_of_b_ok.
  - vm_compute. reflexivity.
Qed.
(** ... and a query with a writing predicate does change the state *)
Example C26_writers_write :
  snd (solve ex_mods 6 (VList [A "learn_rule" [A "old" [S_ "ann"]; VList []]]) [] family) <> family.
Proof. vm_compute. discriminate. Qed.

(** ** C27 *)

(** Any module whose relations use the solver only by calling it: a larger
    recursion limit gives the same answer, the same exception and the same
    state. *)
Theorem C27_limit_irrelevant :
  forall (W : Type) (mods : list (modul W)) n m,
    (forall md, In md mods -> mono_module md) -> n <= m ->
    (forall atoms b w o w', solve mods n atoms b w = (o, w') -> o <> OutOfFuel ->
       solve mods m atoms b w = (o, w')) /\
    (forall atom w o w', write_atom mods n atom w = (o, w') -> o <> OutOfFuel ->
       write_atom mods m atom w = (o, w')).
Proof.
  intros W mods n m Hm Hle. destruct (solver_mono mods Hm n m Hle) as [H1 H2]. split.
  - intros atoms b w o w' H Ho. unfold solve in *. rewrite <- H. apply H1. now rewrite H.
  - intros atom w o w' H Ho. unfold write_atom in *. rewrite <- H. apply H2. now rewrite H.
Qed.
Print Assumptions C27_limit_irrelevant.

Theorem C27_limit_irrelevant_for_rules :
  forall (W : Type) (L : lens W rulebase) tables n m atoms b (w : W) o w',
    n <= m ->
    solve [core_module; inference_module L; table_module tables] n atoms b w = (o, w') -> o <> OutOfFuel ->
    solve [core_module; inference_module L; table_module tables] m atoms b w = (o, w').
Proof.
  intros W L tables n m atoms b w o w' Hle. apply C27_limit_irrelevant; auto.
  intros md [<-|[<-|[<-|[]]]]; [apply core_mono|apply inference_mono|apply table_mono].
Qed.
Print Assumptions C27_limit_irrelevant_for_rules.

(** recursive rules: limit 3 is too small, 4 suffices *)
Example C27_small_limit :
  fst (solve ex_mods 3 (VList [A "ancestor" [S_ "ann"; V "X"]]) [] family) = OutOfFuel /\
  answers (solve ex_mods 4 (VList [A "ancestor" [S_ "ann"; V "X"]]) [] family)
    = Some [[("X", S_ "bob")]; [("X", S_ "dot")]; [("X", S_ "cid")]].
Proof. split; vm_compute; reflexivity. Qed.

(** ** C28 *)

Lemma it_list_from s n : forall k fuel i, n = (i + Z.of_nat k)%Z -> (k < fuel)%nat ->
  it_list fuel (mkIter s n i)
  = (Ok (map (fun j => (py_str s ++ py_str (VInt (i + Z.of_nat j)))%string) (seq 1 k)), mkIter s n (n + 1)%Z).
Proof.
  induction k as [|k IH]; intros fuel i Hn Hf; (destruct fuel as [|fuel]; [lia|]); cbn [it_list]; unfold it_next;
    cbn [it_index it_number it_single].
  - replace (i + 1 >? n)%Z with true by (symmetry; rewrite Z.gtb_ltb; apply Z.ltb_lt; lia).
    simpl. repeat f_equal. lia.
  - replace (i + 1 >? n)%Z with false by (symmetry; rewrite Z.gtb_ltb; apply Z.ltb_ge; lia).
    rewrite (IH fuel (i + 1)%Z) by lia. rewrite <- cons_seq. cbn [map]. f_equal. f_equal. f_equal.
    rewrite <- (seq_shift k 1), map_map. apply map_ext. intros j.
    replace (i + Z.of_nat (S j))%Z with (i + 1 + Z.of_nat j)%Z by lia. reflexivity.
Qed.

Theorem C28_yields_announced_number :
  forall s (n : nat),
    let it := new_iterator s (Z.of_nat n) in
    it_len it = Ok (Z.of_nat n) /\
    exists items it',
      (forall fuel, n < fuel -> it_list fuel it = (Ok items, it')) /\
      length items = n /\
      (forall i, i < n -> nth_error items i = Some (py_str s ++ py_str (VInt (Z.of_nat (S i))))%string) /\
      (* a second loop gets nothing *)
      (forall fuel, 0 < fuel -> fst (it_list fuel it') = Ok []).
Proof.
  intros s n it. split.
  - unfold it_len, it, new_iterator; simpl. destruct (Z.ltb_spec (Z.of_nat n) 0); [lia|reflexivity].
  - eexists _, _. split; [intros fuel Hf; apply (it_list_from s (Z.of_nat n) n fuel 0%Z); [lia|exact Hf]|].
    rewrite map_length, seq_length. split; [reflexivity|]. split.
    + intros i Hi. rewrite nth_error_map, (nth_error_nth' _ 0) by (now rewrite seq_length).
      rewrite seq_nth by exact Hi. simpl option_map. reflexivity.
    + intros fuel Hf. destruct fuel; [lia|]. cbn [it_list]. unfold it_next. cbn [it_index it_number].
      replace (Z.of_nat n + 1 + 1 >? Z.of_nat n)%Z with true by (symmetry; rewrite Z.gtb_ltb; apply Z.ltb_lt; lia).
      reflexivity.
Qed.
Print Assumptions C28_yields_announced_number.

(** an iterator with a negative number: [len] raises *)
Theorem C28_negative_numbers_have_no_length :
  forall s (n : Z), (n < 0)%Z -> it_len (new_iterator s n) = Exn ValueErr.
Proof. intros s n H. unfold it_len, new_iterator. cbn. apply Z.ltb_lt in H. now rewrite H. Qed.
Print Assumptions C28_negative_numbers_have_no_length.

Example C28_three :
  fst (it_list 10 (new_iterator (VList [VNone; VNone]) 3))
  = Ok ["[None, None]1"; "[None, None]2"; "[None, None]3"].
Proof. vm_compute. reflexivity. Qed.

(** alone, its number is the number of results *)
Theorem C28_counted_when_alone :
  forall (W : Type) (mods : list (modul W)) n p args b w rel s k w',
    p <> DISJUNCTION -> find_relations mods w p = [rel] ->
    r_query rel (solver_at mods n) (db_values b args) (mkCtx (r_pred rel) (r_cols rel) args b) w
      = (Ok (QIter s k), w') ->
    solve mods (S n) (VList [VTuple (VStr p :: args)]) b w = (Ok (SIter s k), w').
Proof.
  intros W mods n p args b w rel s k w' Hp Hrels Hq.
  unfold solve. cbn. unfold solve_single, bind, atom_parts, ret.
  destruct (String.eqb_spec p DISJUNCTION); [contradiction|].
  unfold solve_relation, find_relation_values, bind, get. rewrite Hrels. cbn [length Nat.ltb collect_rows].
  unfold bind. rewrite Hq. reflexivity.
Qed.
Print Assumptions C28_counted_when_alone.

(** with another relation by the same name it never gets through *)
Lemma collect_many {W} (sv : solver_if W) rels vals args b : forall acc w o w',
  collect_rows sv true rels vals args b acc w = (Ok o, w') -> exists rows, o = QRows rows.
Proof.
  induction rels as [|rel rels IH]; intros acc w o w'; cbn [collect_rows].
  - intros [= <- _]. eauto.
  - unfold bind. destruct (r_query rel sv vals _ w) as [[q|e|] w1]; try discriminate.
    destruct q; try discriminate. apply IH.
Qed.

Theorem C28_not_combined :
  forall (W : Type) (mods : list (modul W)) n p args b w,
    p <> DISJUNCTION -> 1 < length (find_relations mods w p) ->
    (forall r w', solve mods (S n) (VList [VTuple (VStr p :: args)]) b w = (Ok r, w') -> exists l, r = SList l) /\
    forall rel rest s k w',
      find_relations mods w p = rel :: rest ->
      r_query rel (solver_at mods n) (db_values b args) (mkCtx (r_pred rel) (r_cols rel) args b) w
        = (Ok (QIter s k), w') ->
      solve mods (S n) (VList [VTuple (VStr p :: args)]) b w = (Exn (Raise ("A relation that returns a ResultIterator can't be used in combination with another relation by the same name: " ++ r_pred rel)%string), w').
Proof.
  intros W mods n p args b w Hp Hlen.
  unfold solve. cbn. unfold solve_single, bind, atom_parts, ret.
  destruct (String.eqb_spec p DISJUNCTION); [contradiction|].
  unfold solve_relation, find_relation_values, get.
  destruct (find_relations mods w p) as [|rel rels] eqn:E; [simpl in Hlen; lia|].
  assert (Hm : Nat.ltb 1 (length (rel :: rels)) = true) by (now apply Nat.ltb_lt).
  split.
  - intros r w'. unfold bind at 1 2. rewrite E, Hm. destruct (collect_rows _ true _ _ _ _ [] w) as [[o|e|] w1] eqn:Ec; try discriminate.
    destruct (collect_many _ _ _ _ _ _ _ _ _ Ec) as (rows & ->).
    unfold bind. destruct (check_first_row rows args w1) as [[?|?|] ?]; try discriminate.
    destruct (create_results rows b args w0) as [[?|?|] ?]; try discriminate.
    intros [= <- _]. eauto.
  - intros rel' rest s k w' [= <- <-] Hq. unfold bind. rewrite E, Hm. cbn [collect_rows].
    unfold bind. rewrite Hq. reflexivity.
Qed.
Print Assumptions C28_not_combined.

Definition iter_module {W} (p : string) (k : nat) : modul W :=
  fun _ q => if String.eqb q p then Some (mkRel p [] (fun _ _ _ => ret (QIter (VList [VNone]) k)) None) else None.
Example C28_alone_counts :
  answers (solve [core_module; iter_module "star" 1000] 3
     (VList [A "count" [V "N"; VList [A "star" [V "X"]]]]) [] tt) = Some [[("N", VInt 1000)]].
Proof. vm_compute. reflexivity. Qed.
Example C28_combined_raises :
  fst (solve [core_module; fixed_module "star" [VList [S_ "sun"]]; iter_module "star" 1000] 3
     (VList [A "star" [V "X"]]) [] tt)
  = Exn (Raise "A relation that returns a ResultIterator can't be used in combination with another relation by the same name: star").
Proof. vm_compute. reflexivity. Qed.
