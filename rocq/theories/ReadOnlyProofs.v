(** * Queries without writing predicates leave the state alone *)

From Coq Require Import ZArith QArith String Ascii List Bool Lia Arith.
From Verif Require Import Py PyFacts Effects EffectsFacts Solver Atoms AtomsFacts CoreModule InferenceModule TableModule.
Import ListNotations.
Local Close Scope Q_scope.
Local Open Scope nat_scope.
Local Open Scope string_scope.
Local Open Scope list_scope.

(** no string of [ban] occurs in the value, at any depth *)
Inductive free_of (ban : list string) : value -> Prop :=
| fr_none : free_of ban VNone
| fr_bool b : free_of ban (VBool b)
| fr_int z : free_of ban (VInt z)
| fr_float q : free_of ban (VFloat q)
| fr_str s : ~ In s ban -> free_of ban (VStr s)
| fr_var x : free_of ban (VVar x)
| fr_reif x : free_of ban (VReif x)
| fr_tuple l : Forall (free_of ban) l -> free_of ban (VTuple l)
| fr_list l : Forall (free_of ban) l -> free_of ban (VList l)
| fr_tmpl a b : Forall (free_of ban) a -> Forall (free_of ban) b -> free_of ban (VTmpl a b).

Definition free_binding (ban : list string) (b : binding) : Prop :=
  forall k v, bget k b = Some v -> free_of ban v.

(** repeating a text never gives a banned word, unless it was one *)
Definition rootless (ban : list string) : Prop :=
  forall n s, In (str_repeat n s) ban -> In s ban.

Section RO.
  Context {W : Type}.
  Variable ban : list string.
  Notation ok := (free_of ban).
  Notation okb := (free_binding ban).
  Hypothesis Hroot : rootless ban.
  Variable w : W.

  (** [m] leaves the state [w] alone and its result satisfies [P] *)
  Definition ro {A} (P : A -> Prop) (m : M W A) : Prop :=
    snd (m w) = w /\ forall a, fst (m w) = Ok a -> P a.

  Lemma ro_ret {A} (P : A -> Prop) a : P a -> ro P (ret a).
  Proof. intros H. split; auto. now intros a0 [= <-]. Qed.
  Lemma ro_throw {A} (P : A -> Prop) e : ro P (@throw W A e).
  Proof. split; auto. discriminate. Qed.
  Lemma ro_no_fuel {A} (P : A -> Prop) : ro P (@no_fuel W A).
  Proof. split; auto. discriminate. Qed.
  Lemma ro_or_throw {A} (P : A -> Prop) e o : (forall a, o = Some a -> P a) -> ro P (@or_throw W A e o).
  Proof. destruct o; intros H; [apply ro_ret; auto|apply ro_throw]. Qed.
  Lemma ro_bind {A B} (P : A -> Prop) (Q : B -> Prop) (m : M W A) f :
    ro P m -> (forall a, P a -> ro Q (f a)) -> ro Q (bind m f).
  Proof.
    intros [H1 H2] Hf. unfold ro, bind. destruct (m w) as [[a|e|] w1] eqn:E; simpl in *; subst w1.
    - destruct (Hf a (H2 a eq_refl)) as [G1 G2]. split; auto.
    - split; auto; discriminate.
    - split; auto; discriminate.
  Qed.
  Lemma ro_foldM {A B} (P : B -> Prop) (f : B -> A -> M W B) l :
    (forall acc x, In x l -> P acc -> ro P (f acc x)) -> forall acc, P acc -> ro P (foldM f acc l).
  Proof.
    induction l as [|x l IH]; simpl; intros H acc Ha; [now apply ro_ret|].
    eapply ro_bind; [apply H; auto|]. intros a HP. apply IH; auto.
  Qed.
  Lemma ro_get (P : W -> Prop) : P w -> ro P get.
  Proof. intros H. split; auto. now intros a [= <-]. Qed.
  Lemma ro_weaken {A} (P Q : A -> Prop) m : (forall a, P a -> Q a) -> ro P m -> ro Q m.
  Proof. intros H [H1 H2]. split; auto. Qed.

  (** results and rows *)
  Definition okr (r : sres) : Prop := match r with SList l => Forall okb l | SIter _ _ => True end.
  Definition okrow (v : value) : Prop := exists l, v = VList l /\ Forall ok l.
  Definition okq (o : qres) : Prop := match o with QRows rows => Forall okrow rows | _ => True end.

  Definition ro_solver (sv : solver_if W) : Prop :=
    forall atoms b, ok atoms -> okb b -> ro okr (sv_solve sv atoms b).

  (** the relations that [m] has for the other predicates only read *)
  Definition ro_module (m : modul W) : Prop :=
    forall p rel, ~ In p ban -> m w p = Some rel ->
    forall sv vals c, ro_solver sv -> Forall ok vals -> Forall ok (c_args c) -> okb (c_binding c) ->
      c_pred c = r_pred rel ->
      ro okq (r_query rel sv vals c).

  (** ** values *)

  Lemma ok_tuple l : ok (VTuple l) <-> Forall ok l.
  Proof. split; [now inversion 1|now constructor]. Qed.
  Lemma ok_list l : ok (VList l) <-> Forall ok l.
  Proof. split; [now inversion 1|now constructor]. Qed.

  Lemma okb_bset k v b : okb b -> ok v -> okb (bset k v b).
  Proof. intros H Hv k' v'. rewrite bget_bset. destruct (String.eqb k k'); [now intros [= <-]|apply H]. Qed.
  Lemma okb_nil : okb [].
  Proof. discriminate. Qed.

  Lemma ok_bind_variables v b : ok v -> okb b -> ok (bind_variables v b).
  Proof.
    intros Hv Hb. induction v using value_ind'; simpl; auto.
    - destruct (bget s b) eqn:E; auto. eapply Hb; eauto.
    - apply ok_tuple in Hv. apply ok_tuple. induction H; inversion Hv; subst; simpl; constructor; auto.
    - apply ok_list in Hv. apply ok_list. induction H; inversion Hv; subst; simpl; constructor; auto.
  Qed.

  Lemma ok_db_value b v : ok v -> okb b -> ok (db_value b v).
  Proof. intros Hv Hb. destruct v; simpl; auto. destruct (bget name b) eqn:E; [eapply Hb; eauto|constructor]. Qed.
  Lemma ok_db_values b l : Forall ok l -> okb b -> Forall ok (db_values b l).
  Proof. intros Hl Hb. unfold db_values. induction Hl; simpl; constructor; auto using ok_db_value. Qed.

  Lemma list_repeat_ok l n : Forall ok l -> Forall ok (list_repeat n l).
  Proof. intros H. induction n; simpl; [constructor|]. apply Forall_app; auto. Qed.

  Lemma seq_mul_ok a k v : ok a -> seq_mul a k = Some v -> ok v.
  Proof.
    intros Ha H. destruct a; simpl in H; try discriminate; injection H as <-; constructor.
    - intros F. apply Hroot in F. now inversion Ha.
    - apply list_repeat_ok. now inversion Ha.
    - apply list_repeat_ok. now inversion Ha.
  Qed.
  Lemma py_mul_ok a c v : ok a -> ok c -> py_mul a c = Some v -> ok v.
  Proof.
    intros Ha Hc. unfold py_mul. destruct (int_of a) as [x|], (int_of c) as [y|].
    - intros [= <-]; constructor.
    - destruct (num_of c); [intros [= <-]; constructor|]. now apply seq_mul_ok.
    - destruct (num_of a); [intros [= <-]; constructor|]. now apply seq_mul_ok.
    - destruct (num_of a), (num_of c); try discriminate. intros [= <-]; constructor.
  Qed.

  (** ** the query functions *)

  Ltac roa := first [apply ro_throw | apply ro_ret].

  Lemma ro_item l i : Forall ok l -> ro ok (item l i).
  Proof.
    intros H. unfold item. destruct (nth_error l i) eqn:E; [|apply ro_throw]. apply ro_ret.
    rewrite Forall_forall in H. apply H. eapply nth_error_In; eauto.
  Qed.
  Lemma ro_name_of v : ro (fun _ => True) (@name_of W v).
  Proof. destruct v; simpl; try apply ro_throw; now apply ro_ret. Qed.
  Lemma ro_lookup k b : okb b -> ro ok (@lookup W k b).
  Proof. intros H. unfold lookup. destruct (bget k b) eqn:E; [apply ro_ret; eapply H; eauto|apply ro_throw]. Qed.
  Lemma ro_rows l : Forall (Forall ok) l -> ro okq (@rows W l).
  Proof.
    intros H. apply ro_ret. simpl. rewrite Forall_forall in *. intros v Hv.
    apply in_map_iff in Hv as (x & <- & Hx). exists x. auto.
  Qed.
  Lemma ro_items r : okr r -> ro (Forall okb) (@sres_items W r).
  Proof. destruct r; simpl; intros H; [now apply ro_ret|]. destruct number; [now apply ro_ret|apply ro_throw]. Qed.

  Lemma ro_unpack2 l : Forall ok l -> ro (fun p => ok (fst p) /\ ok (snd p)) (@unpack2 W l).
  Proof.
    intros H. destruct l as [|a [|b [|c l]]]; simpl; try apply ro_throw. apply ro_ret.
    inversion H as [|? ? H1 H2]; subst. inversion H2; subst. auto.
  Qed.
  Lemma ro_oset s v : Forall ok s -> ok v -> ro (Forall ok) (@oset_add W s v).
  Proof.
    intros Hs Hv. unfold oset_add. destruct (hashable v); [|apply ro_throw]. apply ro_ret.
    destruct (py_in v s); auto. apply Forall_app; auto.
  Qed.
  Lemma ro_first v : ok v -> ro ok (@first_item W v).
  Proof.
    intros H. destruct v as [| | | | | | |[|x l]|[|x l]|]; simpl; try apply ro_throw; apply ro_ret;
      inversion H as [| | | | | | |? HF|? HF|]; subst; now inversion HF.
  Qed.
  Lemma ro_key v b : okb b -> ro (fun o => forall x, o = Some x -> ok x) (@get_key W v b).
  Proof.
    intros H. unfold get_key. destruct (hashable v); [|apply ro_throw]. apply ro_ret.
    intros x. destruct v; try discriminate. apply H.
  Qed.
  Lemma ok_of_opt o : (forall x, o = Some x -> ok x) -> ok (of_opt o).
  Proof. destruct o; simpl; intros H; [auto|constructor]. Qed.

  Ltac step :=
    match goal with
    | |- ro _ (bind (item _ _) _) => eapply ro_bind; [apply ro_item; eassumption|intros ? ?]
    | |- ro _ (bind (or_throw _ _) _) => eapply ro_bind with (P := fun _ => True); [apply ro_or_throw; auto|intros ? _]
    | |- ro _ (bind (sv_solve _ _ _) _) => eapply ro_bind; [eauto|intros ? ?]
    | |- ro _ (bind (sres_items _) _) => eapply ro_bind; [apply ro_items; eassumption|intros ? ?]
    | |- ro _ (bind (unpack2 _) _) => eapply ro_bind; [apply ro_unpack2; eassumption|intros [? ?] [? ?]; cbn [fst snd] in *]
    | |- ro _ (throw _) => apply ro_throw
    | |- ro _ (rows _) => apply ro_rows; repeat (constructor; auto)
    | |- ro _ (if ?x then _ else _) => destruct x
    | |- ro _ (match ?x with O => _ | S _ => _ end) => destruct x
    end.

  (** a sum that starts with a number is a number *)
  Lemma ro_sum ev bs : Forall okb bs -> ro ok (foldM (@sum_step W ev) (VInt 0) bs).
  Proof.
    intros Hb. eapply ro_weaken with (P := fun v => exists q, num_of v = Some q).
    { intros v (q & Hq). destruct v; try discriminate; constructor. }
    apply ro_foldM; [|eexists; reflexivity].
    intros acc r Hr (q & Hq). unfold sum_step.
    eapply ro_bind; [apply ro_name_of|intros x _].
    eapply ro_bind; [apply ro_lookup; rewrite Forall_forall in Hb; eauto|intros v Hv].
    apply ro_or_throw. intros a Ha. unfold py_add in Ha.
    destruct (int_of acc), (int_of v); try (injection Ha as <-; simpl; eauto);
      rewrite Hq in Ha; destruct (num_of v) eqn:E; try (injection Ha as <-; simpl; eauto);
      destruct acc; try discriminate; destruct v; discriminate.
  Qed.

  Lemma q_arg_ro better sv vals c :
    ro_solver sv -> Forall ok vals -> Forall ok (c_args c) -> okb (c_binding c) -> ro okq (q_arg better sv vals c).
  Proof.
    intros Hs Hv Ha Hb. unfold q_arg. repeat step.
    eapply ro_bind with (P := fun acc => (forall x, fst acc = Some x -> ok x) /\ ok (snd acc)).
    - apply ro_foldM; [|split; [discriminate|constructor]].
      intros [best e] r Hr [HB HE]. cbn [fst snd] in *. unfold arg_step.
      eapply ro_bind; [apply ro_name_of|intros x _].
      eapply ro_bind; [apply ro_lookup; rewrite Forall_forall in *; eauto|intros v Hv'].
      eapply ro_bind with (P := fun _ => True).
      { destruct best; [apply ro_or_throw; auto|now apply ro_ret]. }
      intros [] _; [|apply ro_ret; auto].
      eapply ro_bind; [apply ro_name_of|intros y _].
      eapply ro_bind; [apply ro_lookup; rewrite Forall_forall in *; eauto|intros e' He'].
      apply ro_ret. cbn [fst snd]. split; auto. destruct (is_none v); [discriminate|now intros ? [= <-]].
    - intros [best e] [HB HE]. cbn [fst snd] in *. apply ro_rows. repeat constructor; auto. now apply ok_of_opt.
  Qed.

  Lemma q_all_ro sv vals c :
    ro_solver sv -> Forall ok vals -> Forall ok (c_args c) -> okb (c_binding c) -> ro okq (q_all sv vals c).
  Proof.
    intros Hs Hv Ha Hb. unfold q_all. repeat step.
    eapply ro_bind with (P := Forall ok).
    { apply ro_foldM; auto. intros acc r Hr Hacc. unfold entity_of.
      eapply ro_bind; [apply ro_name_of|intros x _].
      eapply ro_bind; [apply ro_lookup; rewrite Forall_forall in *; eauto|intros v Hv'].
      apply ro_ret. apply Forall_app; auto. }
    intros es Hes. eapply ro_bind with (P := Forall ok).
    { apply ro_foldM; auto. intros acc e He Hacc. apply ro_oset; auto. rewrite Forall_forall in Hes; auto. }
    intros ents Hents. eapply ro_bind with (P := Forall ok).
    { apply ro_foldM; auto. intros acc e He Hacc. unfold all_step.
      assert (ok e) by (rewrite Forall_forall in Hents; auto).
      eapply ro_bind; [apply ro_name_of|intros x _].
      eapply ro_bind; [apply Hs; auto using okb_bset|intros r Hr].
      destruct (sres_len r); [now apply ro_ret|now apply ro_oset]. }
    intros res Hres. destruct (Nat.eqb _ _); apply ro_rows; [|constructor].
    apply Forall_forall. intros x Hx. apply in_map_iff in Hx as (y & <- & Hy).
    rewrite Forall_forall in Hres. repeat constructor; auto.
  Qed.

  Lemma find_values_ro sv vals c :
    ro_solver sv -> Forall ok vals -> okb (c_binding c) -> ro (Forall ok) (find_values sv vals c).
  Proof.
    intros Hs Hv Hb. unfold find_values. repeat step.
    apply ro_foldM; auto. intros acc r Hr Hacc. assert (okb r) as Hokr by (rewrite Forall_forall in *; eauto).
    unfold find_step.
    assert (G : forall v, ro (Forall ok) (bind (@get_key W v r) (fun o => ret (match o with
             | Some v => if py_in v acc then acc else acc ++ [v]
             | None => acc
             end)))).
    { intros v. eapply ro_bind; [now apply ro_key|]. intros o Ho. apply ro_ret. destruct o; auto.
      destruct (py_in v0 acc); auto. apply Forall_app; auto. }
    destruct a; try apply G.
    eapply ro_bind with (P := Forall ok).
    { apply ro_foldM; auto. intros ac v Hin Hac. unfold combi_step.
      eapply ro_bind; [now apply ro_key|]. intros o Ho. apply ro_ret. apply Forall_app; split; auto.
      repeat constructor. now apply ok_of_opt. }
    intros combi Hc. apply ro_ret. destruct (py_in _ acc); auto. apply Forall_app; split; auto.
    repeat constructor. auto.
  Qed.

  Lemma destructure_terms_ok terms : forall st r, Forall ok terms -> Forall ok st ->
    destructure_terms terms st = Some r -> Forall ok r.
  Proof.
    induction terms as [|a terms IH]; intros [|s st] r Ht Hs; simpl; try (intros [= <-]; constructor).
    inversion Ht; inversion Hs; subst.
    destruct (py_eq a s).
    - destruct (destructure_terms terms st) eqn:E; [|discriminate]. intros [= <-]. constructor; eauto.
    - destruct s; try discriminate. destruct (destructure_terms terms st) eqn:E; [|discriminate].
      intros [= <-]. constructor; eauto.
  Qed.

  Lemma nones_ok {A} (l : list A) : Forall ok (map (fun _ => VNone) l).
  Proof. induction l; simpl; constructor; auto. constructor. Qed.

  Lemma q_destructure_ro sv vals c :
    Forall ok vals -> Forall ok (c_args c) -> okb (c_binding c) -> ro okq (q_destructure sv vals c).
  Proof.
    intros Hv Ha Hb. unfold q_destructure. step.
    eapply ro_bind; [apply ro_first, ok_bind_variables; eassumption|]. intros atom Hatom.
    assert (Hst : Forall ok (tl (c_args c))) by (destruct Ha; simpl; auto).
    assert (Hf : ro okq (@rows W [VNone :: map (fun _ => VNone) (tl (c_args c))])).
    { apply ro_rows. constructor; [|constructor]. constructor; [constructor|apply nones_ok]. }
    destruct atom; try apply ro_throw; (destruct (Nat.eqb _ _); [|exact Hf]);
      (destruct (destructure_terms l (tl (c_args c))) eqn:E; [|exact Hf]);
      apply ro_rows; constructor; [|constructor| |constructor]; (constructor; [constructor|]);
      (eapply destructure_terms_ok; [|exact Hst|exact E]); now inversion Hatom.
  Qed.

  Lemma core_ro : In "store" ban -> ro_module (@core_module W).
  Proof.
    intros Hstore p rel Hp. unfold core_module.
    destruct (table_get p core_table) as [q|] eqn:E; [|discriminate]. intros [= <-] sv vals c Hs Hv Ha Hb _.
    cbn [r_query].
    assert (Hq : forall k q0, In (k, q0) (@core_table W) -> k <> "store" -> ro okq (q0 sv vals c)).
    { intros k q0 Hin Hk. cbn [core_table In] in Hin.
      repeat (destruct Hin as [Hin|Hin]; [injection Hin as <- <-|]); try congruence; try (now destruct Hin).
      - unfold q_equals. repeat step.
      - unfold q_greater_than. repeat step.
      - unfold q_less_than. repeat step.
      - unfold q_multiply. do 2 step.
        eapply ro_bind with (P := ok).
        { apply ro_or_throw. intros v. apply py_mul_ok; assumption. }
        intros v Hv'. repeat step.
      - now apply q_arg_ro.
      - now apply q_arg_ro.
      - unfold q_sum. repeat step. eapply ro_bind; [now apply ro_sum|]. intros s Hok. apply ro_rows. repeat constructor; auto.
      - unfold q_avg. repeat step. eapply ro_bind; [now apply ro_sum|]. intros s Hok.
        eapply ro_bind with (P := ok).
        { apply ro_or_throw. intros v. unfold py_div_nat. destruct (num_of s); [|discriminate]. intros [= <-]. constructor. }
        intros v Hv'. apply ro_rows. repeat constructor; auto.
      - unfold q_percentage. repeat step.
      - unfold q_count. repeat step.
      - unfold q_not. repeat step.
      - unfold q_let. repeat step.
      - unfold q_det_equals, q_det. repeat step.
      - unfold q_det_greater_than, q_det. repeat step.
      - unfold q_det_less_than, q_det. repeat step.
      - now apply q_all_ro.
      - unfold q_none. repeat step.
      - unfold q_scoped. repeat step.
      - now apply q_destructure_ro.
      - unfold q_find_all. eapply ro_bind; [now apply find_values_ro|]. intros l Hl. apply ro_rows. repeat constructor; auto.
      - unfold q_find_one. eapply ro_bind; [now apply find_values_ro|]. intros l Hl.
        destruct l; apply ro_rows; repeat constructor. now inversion Hl. }
    apply (Hq p q); [|intros ->; contradiction].
    clear -E. induction core_table as [|[k q1] t IH]; simpl in *; [discriminate|].
    destruct (String.eqb_spec p k); [injection E as <-; subst; auto|auto].
  Qed.

  (** ** rules *)

  Definition rule_free (r : rule) : Prop := Forall ok (ru_head r) /\ ok (ru_body r).

  Lemma bind_head_ok b ras : forall args rb rb', okb b -> Forall ok args -> okb rb ->
    bind_head b ras args rb = Some rb' -> okb rb'.
  Proof.
    induction ras as [|ra ras IH]; intros [|v args] rb rb' Hb Hargs Hrb; cbn [bind_head]; try (now intros [= <-]).
    inversion Hargs; subst.
    assert (Hbv : ok (bound_value b v)).
    { destruct v; simpl; auto. destruct (bget name b) eqn:E; [eapply Hb; eauto|constructor]. }
    destruct ra; destruct (bound_value b v) eqn:Ev;
      repeat match goal with
      | |- context [bget ?x rb] => destruct (bget x rb)
      | |- context [py_eq ?x ?y] => destruct (py_eq x y)
      end; try discriminate; intros H; (eapply IH; [| | |exact H]); auto; apply okb_bset; auto.
  Qed.

  Lemma head_row_ok s ras : forall args r, okb s -> Forall ok ras -> Forall ok args ->
    head_row s ras args = Some r -> Forall ok r.
  Proof.
    induction ras as [|ra ras IH]; intros [|v args] r Hs Hr Ha; cbn [head_row]; try (intros [= <-]; constructor).
    inversion Hr; inversion Ha; subst.
    set (cell := match v with VVar _ => _ | _ => _ end).
    assert (forall x, cell = Some x -> ok x) as Hc.
    { unfold cell. intros x. destruct v; try (now intros [= <-]). destruct ra; try (now intros [= <-]).
      apply Hs. }
    destruct cell; [|discriminate]. destruct (head_row s ras args) eqn:E; [|discriminate].
    intros [= <-]. constructor; eauto.
  Qed.

  Lemma head_rows_ok ss ras args : forall rs, Forall okb ss -> Forall ok ras -> Forall ok args ->
    head_rows ss ras args = Some rs -> Forall (Forall ok) rs.
  Proof.
    induction ss as [|s ss IH]; intros rs Hs Hr Ha; simpl; [intros [= <-]; constructor|].
    inversion Hs; subst. destruct (head_row s ras args) eqn:E; [|discriminate].
    destruct (head_rows ss ras args); [|discriminate]. intros [= <-]. constructor.
    - eapply head_row_ok; [| | |exact E]; auto.
    - apply IH; auto.
  Qed.


  Lemma bget_filter_keys (f : string -> bool) k b :
    bget k (filter (fun kv => f (fst kv)) b) = if f k then bget k b else None.
  Proof.
    induction b as [|[k' v'] b IH]; simpl; [now destruct (f k)|].
    destruct (f k') eqn:E; simpl; destruct (String.eqb_spec k k'); subst; auto.
    - now rewrite E.
    - rewrite IH, E. reflexivity.
  Qed.
  Lemma okb_filter f b : okb b -> okb (filter (fun kv => f (fst kv)) b).
  Proof. intros H k v. rewrite bget_filter_keys. destruct (f k); [apply H|discriminate]. Qed.

  Lemma solve_rule_ro sv r args b : ro_solver sv -> rule_free r -> Forall ok args -> okb b ->
    ro (Forall (Forall ok)) (solve_rule sv r args b).
  Proof.
    intros Hs [Hh Hbody] Ha Hb. unfold solve_rule.
    eapply ro_bind with (P := fun _ => True).
    { destruct b; [now apply ro_ret|apply ro_or_throw; auto]. }
    intros vars _.
    destruct (bind_head b (tl (ru_head r)) args _) as [rb'|] eqn:E; [|apply ro_ret; constructor].
    assert (Hrb : okb rb').
    { eapply bind_head_ok; [exact Hb|exact Ha| |exact E].
      apply (okb_filter (fun k => negb (existsb (String.eqb k) vars))). exact Hb. }
    eapply ro_bind with (P := fun _ => True); [apply ro_or_throw; auto|]. intros body _.
    eapply ro_bind with (P := Forall okb).
    { destruct body; [apply ro_ret; auto|].
      eapply ro_bind; [apply Hs; auto|]. intros rr Hrr. now apply ro_items. }
    intros bs Hbs. destruct (head_rows bs _ args) eqn:E2; apply ro_ret; [|constructor].
    eapply head_rows_ok; [exact Hbs| |exact Ha|exact E2]. destruct Hh; simpl; auto.
  Qed.

  Lemma inference_ro (L : lens W rulebase) : In "learn_rule" ban ->
    (forall p rs r, rules_get p (lget L w) = Some rs -> In r rs -> rule_free r) ->
    ro_module (inference_module L).
  Proof.
    intros Hl Hrules p rel Hp. unfold inference_module. destruct (rules_get p (lget L w)) as [rs|] eqn:E.
    - intros [= <-] sv vals c Hs Hv Ha Hb Hpred. cbn [r_query r_pred] in *. unfold handle_rule.
      eapply ro_bind with (P := fun x => x = w); [now apply ro_get|]. intros x ->. rewrite Hpred, E.
      eapply ro_bind with (P := Forall (Forall ok)).
      { apply ro_foldM; auto. intros acc r Hr Hacc. eapply ro_bind; [apply solve_rule_ro; eauto|].
        intros y Hy. apply ro_ret. apply Forall_app; auto. }
      intros res Hres. apply (ro_rows res). exact Hres.
    - destruct (String.eqb_spec p "learn_rule"); [|discriminate]. subst. contradiction.
  Qed.

  Lemma table_ro tables :
    (forall p rows, tables w p = Some rows -> Forall (Forall ok) rows) ->
    ro_module (@table_module W tables).
  Proof.
    intros Ht p rel Hp. unfold table_module. destruct (tables w p) as [rows|] eqn:E; [|discriminate].
    intros [= <-] sv vals c Hs Hv Ha Hb Hpred. cbn [r_query r_pred] in *. unfold table_query.
    eapply ro_bind with (P := fun x => x = w); [now apply ro_get|]. intros x ->. rewrite E.
    apply (ro_rows (filter (row_matches vals) rows)). specialize (Ht _ _ E).
    rewrite Forall_forall in *. intros r Hr. apply filter_In in Hr. now apply Ht.
  Qed.

  (** ** the solver *)
  Variable mods : list (modul W).
  Hypothesis Hmods : forall m, In m mods -> ro_module m.

  Definition rel_ro (rel : relation W) : Prop :=
    forall sv vals c, ro_solver sv -> Forall ok vals -> Forall ok (c_args c) -> okb (c_binding c) ->
      c_pred c = r_pred rel -> ro okq (r_query rel sv vals c).

  Lemma find_relations_ro p rel : ~ In p ban -> In rel (find_relations mods w p) -> rel_ro rel.
  Proof.
    intros Hp. unfold find_relations. revert Hmods. induction mods as [|m ms IH]; simpl; intros Hm; [intros []|].
    destruct (m w p) eqn:E.
    - intros [<-|Hr]; [|apply IH; auto]. unfold rel_ro. eapply Hm; eauto.
    - intros Hr. apply IH; auto.
  Qed.

  Lemma add_rows_ok rs : forall acc, Forall okrow acc -> Forall okrow rs -> Forall okrow (fold_left add_row rs acc).
  Proof.
    induction rs as [|r rs IH]; intros acc Ha Hr; simpl; auto. inversion Hr; subst. apply IH; auto.
    unfold add_row. destruct (existsb _ acc); auto. apply Forall_app; auto.
  Qed.

  Lemma collect_ro sv many rels vals args b : ro_solver sv -> (forall rel, In rel rels -> rel_ro rel) ->
    Forall ok vals -> Forall ok args -> okb b ->
    forall acc, Forall okrow acc -> ro okq (collect_rows sv many rels vals args b acc).
  Proof.
    intros Hs Hr Hv Ha Hb. induction rels as [|rel rels IH]; intros acc Hacc; simpl; [now apply ro_ret|].
    eapply ro_bind; [apply Hr; simpl; auto|]. intros [rs|s k|] Hrs.
    - apply IH; [intros; apply Hr; now right|]. now apply add_rows_ok.
    - destruct many; [apply ro_throw|now apply ro_ret].
    - apply ro_throw.
  Qed.

  Lemma subscript_ro l i : Forall ok l -> ro ok (@subscript W (VList l) i).
  Proof.
    intros H. simpl. destruct (nth_error l i) eqn:E; [|apply ro_throw]. apply ro_ret.
    rewrite Forall_forall in H. eapply H, nth_error_In; eauto.
  Qed.

  Lemma match_args_ro l b args : Forall ok l -> forall i res conf, okb res ->
    ro (fun p => okb (fst p)) (@match_args W (VList l) b i args res conf).
  Proof.
    intros Hl. induction args as [|arg args IH]; intros i res conf Hres; cbn [match_args]; [now apply ro_ret|].
    assert (G : forall a, ro (fun p => okb (fst p)) (bind (@subscript W (VList l) i)
              (fun vi => match_args (VList l) b (S i) args res (conf || (negb (is_none vi) && negb (py_eq a vi)))))).
    { intros a. eapply ro_bind; [now apply subscript_ro|]. intros vi Hvi. now apply IH. }
    destruct arg; try apply G.
    destruct (bget name b); [now apply IH|].
    eapply ro_bind; [now apply subscript_ro|]. intros vi Hvi. apply IH. now apply okb_bset.
  Qed.

  Lemma create_results_ro rows b args : Forall okrow rows -> okb b ->
    ro (Forall okb) (@create_results W rows b args).
  Proof.
    intros Hr Hb. unfold create_results. apply ro_foldM; auto.
    intros acc v Hv Hacc. rewrite Forall_forall in Hr. destruct (Hr v Hv) as (l & -> & Hl).
    eapply ro_bind; [apply match_args_ro; auto|]. intros [res conf] Hok. simpl in Hok.
    destruct conf; apply ro_ret; auto. apply Forall_app; auto.
  Qed.

  Lemma single_ro sv atom b : ro_solver sv -> ok atom -> okb b -> ro okr (solve_single mods sv atom b).
  Proof.
    intros Hs Hat Hb. unfold solve_single.
    eapply ro_bind with (P := fun pa => ok (fst pa) /\ Forall ok (snd pa)).
    { unfold atom_parts. destruct atom as [| | | | | | |[|p l]|[|p l]|]; try apply ro_throw; apply ro_ret;
        inversion Hat as [| | | | | | |? HF|? HF|]; subst; inversion HF; subst; auto. }
    intros [p args] [Hp Hargs]. cbn [fst snd] in *. destruct p; try apply ro_throw.
    destruct (String.eqb s DISJUNCTION).
    - destruct args as [|ds args]; [apply ro_throw|].
      assert (G : forall l, Forall ok l -> ro okr (solve_disjuncts sv l b)).
      { induction 1; simpl; [apply ro_ret; constructor|].
        eapply ro_bind; [apply Hs; auto|]. intros r Hr. destruct (sres_len r); auto. now apply ro_ret. }
      inversion Hargs as [|? ? Hds _]; subst.
      unfold solve_disjunction. destruct ds; try apply ro_throw; apply G; now inversion Hds.
    - unfold solve_relation. eapply ro_bind with (P := okq).
      + unfold find_relation_values. eapply ro_bind with (P := fun x => x = w); [now apply ro_get|]. intros x ->.
        destruct (find_relations mods w s) eqn:E; [apply ro_throw|]. rewrite <- E.
        apply collect_ro; auto.
        * intros rel. apply find_relations_ro. now inversion Hp.
        * now apply ok_db_values.
      + intros [rs|s' k|] Hq; [|now apply ro_ret|apply ro_throw].
        eapply ro_bind with (P := fun _ => True).
        { unfold check_first_row. destruct rs as [|[] ?]; try apply ro_throw; try (now apply ro_ret).
          destruct (Nat.eqb _ _); [now apply ro_ret|apply ro_throw]. }
        intros _ _. eapply ro_bind; [apply create_results_ro; auto|].
        intros res Hres. now apply ro_ret.
  Qed.

  Lemma add_bindings_ok rs : forall acc, Forall okb acc -> Forall okb rs -> Forall okb (fold_left add_binding rs acc).
  Proof.
    induction rs as [|r rs IH]; intros acc Ha Hr; simpl; auto. inversion Hr; subst. apply IH; auto.
    unfold add_binding. destruct (dict_in r acc); auto. apply Forall_app; auto.
  Qed.

  Lemma atoms_ro sv atoms : ro_solver sv -> Forall ok atoms ->
    forall b, okb b -> ro okr (solve_atoms mods sv atoms b).
  Proof.
    intros Hs. induction atoms as [|a atoms IH]; intros Hat b Hb.
    { apply ro_ret. simpl. auto. }
    inversion Hat; subst. destruct atoms as [|a2 atoms]; [now apply single_ro|].
    change (solve_atoms mods sv (a :: a2 :: atoms) b) with
        (bind (solve_single mods sv a b) (fun r => bind (sres_items r) (fun bindings =>
         bind (foldM (fun acc b' => bind (solve_atoms mods sv (a2 :: atoms) b') (fun rr =>
                bind (sres_items rr) (fun rs => ret (fold_left add_binding rs acc)))) [] bindings)
              (fun result => ret (SList result))))).
    eapply ro_bind; [now apply single_ro|]. intros r Hr.
    eapply ro_bind; [now apply ro_items|]. intros bs Hbs.
    eapply ro_bind with (P := Forall okb).
    - apply ro_foldM; auto. intros acc b' Hb' Hacc. eapply ro_bind.
      + apply IH; auto. rewrite Forall_forall in Hbs; auto.
      + intros rr Hrr. eapply ro_bind; [now apply ro_items|]. intros rs Hrs. apply ro_ret. now apply add_bindings_ok.
    - intros res Hres. now apply ro_ret.
  Qed.

  Lemma solver_ro n : ro_solver (solver_at mods n).
  Proof.
    induction n as [|n IH]; intros atoms b Ha Hb; simpl; [apply ro_no_fuel|].
    unfold solve_F. destruct atoms; try apply ro_throw. apply atoms_ro; auto. now apply ok_list.
  Qed.
End RO.
