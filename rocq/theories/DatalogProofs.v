(** * Datalog: soundness and completeness of solving with tables and rules *)

From Coq Require Import ZArith String List Bool Lia Arith.
From Verif Require Import Py PyFacts ReprProofs Effects EffectsFacts Solver SolverSpec
  SolverProofs SolverProofs2 MatchProofs Atoms AtomsFacts CoreModule InferenceModule
  TableModule DatalogSpec.
Import ListNotations.
Local Open Scope string_scope.
Local Open Scope list_scope.

(** the rule as the inference module stores it *)
Definition to_rule (r : frule) : rule :=
  mkRule (VStr (fa_pred (fr_head r)) :: fa_args (fr_head r)) (VList (map atom_value (fr_body r))).

(** the rule base after inserting the rules one by one *)
Definition rulebase_of (rules : list frule) : rulebase :=
  fold_left (fun rb r => rules_add (fa_pred (fr_head r)) (to_rule r) rb) rules [].

(** a predicate that is not built in *)
Definition user_pred (p : string) : Prop :=
  table_get (W:=unit) p core_table = None /\ p <> DISJUNCTION /\ p <> "learn_rule".

Definition flat_atom (arity : string -> nat) (a : fatom) : Prop :=
  user_pred (fa_pred a) /\ length (fa_args a) = arity (fa_pred a) /\
  forall v, In v (fa_args a) -> flat_arg v.
Definition flat_atoms (arity : string -> nat) (q : list fatom) : Prop :=
  forall a, In a q -> flat_atom arity a.
Definition flat_rule (arity : string -> nat) (r : frule) : Prop :=
  flat_atom arity (fr_head r) /\ flat_atoms arity (fr_body r).

(** tables hold rows of constants, of the right length *)
Definition good_tables {W} (tables : W -> string -> option (list (list value)))
    (arity : string -> nat) (w : W) : Prop :=
  forall p rows, tables w p = Some rows ->
    forall t, In t rows -> length t = arity p /\ forallb constant t = true.

(** the table contents *)
Definition db_of {W} (tables : W -> string -> option (list (list value))) (w : W) (p : string)
    : list (list value) :=
  match tables w p with Some rows => rows | None => [] end.

Lemma constant_plain v : constant v = plain v.
Proof. reflexivity. Qed.
Lemma const_plain_binding b : const_binding b <-> plain_binding b.
Proof. reflexivity. Qed.

Lemma table_get_unit {W} p : table_get (W:=unit) p core_table = None ->
  table_get (W:=W) p core_table = None.
Proof.
  unfold core_table. simpl.
  repeat match goal with
  | |- context [String.eqb p ?s] => destruct (String.eqb p s); [discriminate|]
  end. auto.
Qed.

(** ** the rule base *)

Lemma rules_add_get p r rb q :
  rules_get q (rules_add p r rb) =
  if String.eqb q p then Some (match rules_get p rb with Some rs => rs ++ [r] | None => [r] end)
  else rules_get q rb.
Proof.
  induction rb as [|[k rs] rb IH]; simpl.
  - destruct (String.eqb_spec q p); auto.
  - destruct (String.eqb_spec p k) as [->|Hn]; simpl.
    + rewrite ?String.eqb_refl. destruct (String.eqb q k); auto.
    + rewrite IH. destruct (String.eqb_spec q k) as [->|].
      * destruct (String.eqb_spec k p); [congruence|auto].
      * destruct (String.eqb_spec q p); auto.
Qed.

Lemma rulebase_get_gen rules : forall rb p,
  match rules_get p (fold_left (fun rb r => rules_add (fa_pred (fr_head r)) (to_rule r) rb) rules rb) with
  | Some rs => rs = (match rules_get p rb with Some l => l | None => [] end)
                    ++ map to_rule (filter (fun r => String.eqb p (fa_pred (fr_head r))) rules)
  | None => rules_get p rb = None /\ filter (fun r => String.eqb p (fa_pred (fr_head r))) rules = []
  end.
Proof.
  induction rules as [|r rules IH]; intros rb p; cbn [fold_left filter].
  - simpl. destruct (rules_get p rb); auto. now rewrite app_nil_r.
  - specialize (IH (rules_add (fa_pred (fr_head r)) (to_rule r) rb) p).
    destruct (rules_get p (fold_left _ rules _)) as [rs|].
    + rewrite IH, rules_add_get. destruct (String.eqb_spec p (fa_pred (fr_head r))) as [->|]; auto.
      simpl. destruct (rules_get _ rb); simpl; auto. now rewrite <- app_assoc.
    + destruct IH as [IH1 IH2]. rewrite rules_add_get in IH1.
      destruct (String.eqb_spec p (fa_pred (fr_head r))); [discriminate|]. auto.
Qed.

Lemma rulebase_get rules p rs : rules_get p (rulebase_of rules) = Some rs ->
  forall r, In r rs <-> exists fr, In fr rules /\ fa_pred (fr_head fr) = p /\ r = to_rule fr.
Proof.
  intros H r. pose proof (rulebase_get_gen rules [] p) as G. unfold rulebase_of in H.
  rewrite H in G. simpl in G. subst rs. rewrite in_map_iff. split.
  - intros (fr & <- & Hf). apply filter_In in Hf as [Hf Hp]. apply String.eqb_eq in Hp. eauto.
  - intros (fr & Hf & Hp & ->). exists fr. split; auto. apply filter_In. split; auto.
    apply String.eqb_eq. auto.
Qed.

Lemma rulebase_has rules fr : In fr rules ->
  exists rs, rules_get (fa_pred (fr_head fr)) (rulebase_of rules) = Some rs.
Proof.
  intros H. pose proof (rulebase_get_gen rules [] (fa_pred (fr_head fr))) as G.
  unfold rulebase_of. destruct (rules_get _ _); eauto. destruct G as [_ G].
  exfalso. assert (F : In fr (filter (fun r => String.eqb (fa_pred (fr_head fr)) (fa_pred (fr_head r))) rules))
    by (apply filter_In; split; auto; apply String.eqb_refl).
  now rewrite G in F.
Qed.

(** ** bindings as assignments *)

Definition asg (r : binding) : assignment :=
  fun x => match bget x r with Some v => v | None => VInt 0 end.

Lemma asg_const r : const_binding r -> const_assignment (asg r).
Proof. intros H x. unfold asg. destruct (bget x r) eqn:E; eauto. Qed.

Lemma flat_arg_cases v : flat_arg v -> (exists x, v = VVar x) \/ (is_var v = false /\ plain v = true).
Proof. intros [[x ->]|H]; eauto. right. split; auto. destruct v; auto; discriminate. Qed.

Lemma plain_not_var v : plain v = true -> is_var v = false.
Proof. destruct v; auto; discriminate. Qed.

(** ** row_agrees *)

(** [row] can be the row of the atom with arguments [args], as seen from [b] *)
Definition cell_agrees (b : binding) (arg y : value) : Prop :=
  plain y = true /\
  match arg with
  | VVar x => match bget x b with Some v => y = v | None => True end
  | _ => y = arg
  end.
Definition row_agrees (b : binding) (args row : list value) : Prop := Forall2 (cell_agrees b) args row.

Lemma Forall2_nth {A B} (P : A -> B -> Prop) l m : Forall2 P l m ->
  forall i a, nth_error l i = Some a -> exists y, nth_error m i = Some y /\ P a y.
Proof.
  induction 1; intros [|i] a Ha; simpl in *; try discriminate; eauto.
  injection Ha as <-. eauto.
Qed.

Lemma Forall2_nth_intro {A B} (P : A -> B -> Prop) l : forall m, length l = length m ->
  (forall i a y, nth_error l i = Some a -> nth_error m i = Some y -> P a y) -> Forall2 P l m.
Proof.
  induction l as [|a l IH]; intros [|y m] Hl H; simpl in Hl; try discriminate; constructor.
  - apply (H 0); reflexivity.
  - apply IH; [lia|]. intros i. apply (H (S i)).
Qed.

Lemma row_agrees_plain b args row : row_agrees b args row -> forallb plain row = true.
Proof. induction 1; simpl; auto. destruct H. now rewrite H, IHForall2. Qed.

Lemma table_row_agrees b args row :
  plain_binding b -> (forall v, In v args -> flat_arg v) -> forallb plain row = true ->
  row_matches (db_values b args) row = true <-> (row_agrees b args row).
Proof.
  intros Hb Hf Hr. unfold row_matches, db_values, row_agrees.
  revert row Hr. induction args as [|a args IH]; intros [|y row] Hr; simpl.
  - split; auto.
  - split; [discriminate|]. intros F; inversion F.
  - split; [discriminate|]. intros F; inversion F.
  - simpl in Hr. apply andb_true_iff in Hr as [Hy Hr]. rewrite andb_true_iff.
    rewrite IH by (auto; intros; apply Hf; now right).
    assert (E : is_none (db_value b a) || py_eq (db_value b a) y = true <-> cell_agrees b a y).
    { unfold cell_agrees. destruct (flat_arg_cases a (Hf a (or_introl eq_refl))) as [[x ->]|[Hv Hp]].
      - simpl. destruct (bget x b) eqn:Eb.
        + pose proof (Hb _ _ Eb) as Hp. rewrite (plain_not_none _ Hp). simpl.
          rewrite py_eq_plain_iff by auto. split; [intros ->|intros [_ ->]]; auto.
        + simpl. split; auto.
      - assert (db_value b a = a) as -> by (destruct a; auto; discriminate).
        rewrite (plain_not_none _ Hp). simpl. rewrite py_eq_plain_iff by auto.
        destruct a; try discriminate; (split; [intros <-|intros [_ ->]]; auto). }
    rewrite E. split; [intros []; constructor; auto|intros F; inversion F; auto].
Qed.

(** an assignment that maps the arguments to the row agrees with it *)
Lemma agrees_row b args s : const_assignment s -> agrees s b ->
  (forall v, In v args -> flat_arg v) -> row_agrees b args (map (inst s) args).
Proof.
  intros Hs Ha Hf. unfold row_agrees. induction args as [|a args IH]; simpl; constructor.
  - unfold cell_agrees. destruct (flat_arg_cases a (Hf a (or_introl eq_refl))) as [[x ->]|[Hv Hp]]; simpl.
    + split; [apply Hs|]. destruct (bget x b) eqn:E; auto.
    + destruct a; try discriminate; auto.
  - apply IH. intros; apply Hf; now right.
Qed.

(** ** matching a row that agrees *)

Lemma match_args_values v row b args : v = VList row -> forall {W} i r c (w : W) r' c' w',
  match_args v b i args r c w = (Ok (r', c'), w') ->
  forall k u, bget k r' = Some u -> bget k r = Some u \/ In u row.
Proof.
  intros -> W. induction args as [|a args IH]; intros i r c w r' c' w' H k u Hk.
  - simpl in H. inv_ret H. inversion H; subst. auto.
  - destruct (is_var a) eqn:Ev.
    + destruct a; try discriminate. destruct (bget name b) eqn:Eb.
      * erewrite match_args_bound in H by eassumption. eauto.
      * rewrite match_args_unbound in H by assumption. inv_bind H.
        apply subscript_list in E. eapply IH in H; eauto. destruct H as [H|]; auto.
        rewrite bget_bset in H. destruct (String.eqb name k); auto.
        injection H as ->. right. eapply nth_error_In; eauto.
    + rewrite match_args_const in H by assumption. inv_bind H. eapply IH in H; eauto.
Qed.

(** what a solution of a single atom satisfies *)
Lemma fits_agrees b args row r :
  plain_binding b -> plain_binding r -> row_agrees b args row -> row_fits b args row r ->
  (forall v, In v args -> flat_arg v) ->
  extends b r /\ (forall x, In (VVar x) args -> bget x r <> None) /\
  (forall k, bget k r <> None -> bget k b <> None \/ In (VVar k) args) /\
  map (inst (asg r)) args = row.
Proof.
  intros Hb Hr Ha [F1 F2 F3 F4] Hf.
  assert (X : extends b r).
  { intros k v Hk. specialize (F1 k v Hk). destruct (bget k r) eqn:E; simpl in F1; try discriminate.
    f_equal. apply py_eq_plain; eauto. }
  assert (B : forall x, In (VVar x) args -> bget x r <> None).
  { intros x Hx. destruct (bget x b) eqn:E.
    - rewrite (X _ _ E). discriminate.
    - apply In_nth_error in Hx as [i Hi]. destruct (F2 i x Hi E) as (v & _ & Hv).
      destruct (bget x r); discriminate. }
  split; [exact X|]. split; [exact B|]. split.
  - intros k Hk. destruct (bget k b) eqn:Eb; [left; discriminate|]. right.
    destruct (in_dec string_dec k
       (flat_map (fun a => match a with VVar x => [x] | _ => [] end) args)) as [Hi|Hi].
    + apply in_flat_map in Hi as (a & Ha' & Hk'). destruct a; simpl in Hk'; try tauto.
      destruct Hk' as [->|[]]. auto.
    + exfalso. apply Hk. apply F4; auto. intros Hin. apply Hi. apply in_flat_map.
      exists (VVar k). simpl; auto.
  - assert (G : forall i arg y, nth_error args i = Some arg -> nth_error row i = Some y -> inst (asg r) arg = y).
    { intros i arg y Hi Hy. destruct (Forall2_nth _ _ _ Ha i arg Hi) as (y' & Hy' & Hp & Hc).
      rewrite Hy in Hy'. injection Hy' as <-.
      destruct (flat_arg_cases arg (Hf arg (nth_error_In _ _ Hi))) as [[x ->]|[Hv Hpl]].
      - simpl. unfold asg. destruct (bget x b) eqn:E.
        + rewrite (X _ _ E). auto.
        + destruct (F2 i x Hi E) as (v & Hv & Hx). rewrite Hy in Hv. injection Hv as <-.
          destruct (bget x r) eqn:Er; simpl in Hx; try discriminate.
          apply py_eq_plain; eauto.
      - destruct arg; try discriminate; auto. }
    clear -G Ha. revert G. induction Ha; simpl; intros G; auto. f_equal.
    + apply (G 0); reflexivity.
    + apply IHHa. intros i. apply (G (S i)).
Qed.

(** ** rule heads *)

Section Head.
  Variable b : binding.
  Hypothesis Hb : plain_binding b.

  Definition unbound (v : value) : Prop := exists x, v = VVar x /\ bget x b = None.

  Lemma bound_value_cases v : flat_arg v ->
    (unbound v /\ bound_value b v = v) \/ (plain (bound_value b v) = true).
  Proof.
    intros Hv. destruct (flat_arg_cases v Hv) as [[x ->]|[_ Hp]].
    - simpl. destruct (bget x b) eqn:E; eauto. left. split; auto. now exists x.
    - right. destruct v; try discriminate; auto.
  Qed.

  (** what [bind_head] has to achieve for one position *)
  Definition head_ok (rb : binding) (ra v : value) : Prop :=
    unbound v \/ match ra with
                 | VVar x => bget x rb = Some (bound_value b v)
                 | _ => ra = bound_value b v
                 end.

  Lemma head_ok_extends rb rb' ra v : extends rb rb' -> head_ok rb ra v -> head_ok rb' ra v.
  Proof. intros He [H|H]; [now left|]. right. destruct ra; auto. Qed.

  Lemma bind_head_sound hargs : forall args rb rb',
    (forall v, In v hargs -> flat_arg v) -> (forall v, In v args -> flat_arg v) ->
    length hargs = length args -> plain_binding rb ->
    bind_head b hargs args rb = Some rb' ->
    plain_binding rb' /\ extends rb rb' /\ Forall2 (head_ok rb') hargs args.
  Proof.
    induction hargs as [|ra hargs IH]; intros [|v args] rb rb' Hh Ha Hl Hr H; simpl in Hl; try discriminate.
    - simpl in H. injection H as <-. split; auto. split; [apply extends_refl|constructor].
    - assert (Hh' : forall v, In v hargs -> flat_arg v) by (intros; apply Hh; now right).
      assert (Ha' : forall v, In v args -> flat_arg v) by (intros; apply Ha; now right).
      assert (Hl' : length hargs = length args) by lia.
      simpl in H.
      destruct (bound_value_cases v (Ha v (or_introl eq_refl))) as [[Hu Hv]|Hp].
      + destruct Hu as (x & -> & Hx). rewrite Hv in H.
        assert (bind_head b hargs args rb = Some rb') as H' by (destruct ra; exact H).
        apply IH in H' as (A & B & C); auto. split; auto. split; auto. constructor; auto.
        left. now exists x.
      + destruct (flat_arg_cases ra (Hh ra (or_introl eq_refl))) as [[x ->]|[Hra Hrp]].
        * assert (H' : match bget x rb with
                 | Some old => if py_eq old (bound_value b v) then bind_head b hargs args (bset x (bound_value b v) rb) else None
                 | None => bind_head b hargs args (bset x (bound_value b v) rb)
                 end = Some rb') by (destruct (bound_value b v); try discriminate; exact H).
          clear H.
          assert (Hr' : plain_binding (bset x (bound_value b v) rb)).
          { intros k u. rewrite bget_bset. destruct (String.eqb x k); eauto. congruence. }
          assert (extends rb (bset x (bound_value b v) rb) /\
                       bind_head b hargs args (bset x (bound_value b v) rb) = Some rb') as [He H].
          { destruct (bget x rb) eqn:E.
            - destruct (py_eq v0 (bound_value b v)) eqn:Eq; [|discriminate]. split; auto.
              apply py_eq_plain in Eq; eauto. subst v0.
              intros k u Hk. rewrite bget_bset. destruct (String.eqb_spec x k) as [<-|]; congruence.
            - split; auto. intros k u Hk. rewrite bget_bset. destruct (String.eqb_spec x k) as [<-|]; congruence. }
          apply IH in H as (A & B & C); auto. split; auto. split; [eapply extends_trans; eauto|].
          constructor; auto. right. apply B. apply bget_bset_same.
        * assert (H' : py_eq (bound_value b v) ra = true /\ bind_head b hargs args rb = Some rb').
          { destruct ra; try discriminate; destruct (bound_value b v); try discriminate;
              destruct (py_eq _ _); auto; discriminate. }
          destruct H' as [Eq H']. apply py_eq_plain in Eq; auto.
          apply IH in H' as (A & B & C); auto. split; auto. split; auto. constructor; auto.
          right. destruct ra; try discriminate; auto.
  Qed.

  Lemma bind_head_complete s hargs : const_assignment s -> forall args rb,
    (forall v, In v hargs -> flat_arg v) -> (forall v, In v args -> flat_arg v) ->
    length hargs = length args -> plain_binding rb ->
    row_agrees b args (map (inst s) hargs) ->
    (forall x, In (VVar x) hargs -> forall v, bget x rb = Some v -> s x = v) ->
    exists rb', bind_head b hargs args rb = Some rb' /\
      (forall x, In (VVar x) hargs -> forall v, bget x rb' = Some v -> s x = v) /\
      (forall x, ~ In (VVar x) hargs -> bget x rb' = bget x rb).
  Proof.
    intros Hs. induction hargs as [|ra hargs IH]; intros [|v args] rb Hh Ha Hl Hr Hag Hx;
      simpl in Hl; try discriminate.
    - simpl. exists rb. auto.
    - assert (Hh' : forall v, In v hargs -> flat_arg v) by (intros; apply Hh; now right).
      assert (Ha' : forall v, In v args -> flat_arg v) by (intros; apply Ha; now right).
      assert (Hl' : length hargs = length args) by lia.
      inversion Hag as [|? ? ? ? [Hcp Hc] Hag']; subst.
      simpl.
      destruct (bound_value_cases v (Ha v (or_introl eq_refl))) as [[Hu Hv]|Hp].
      + destruct Hu as (y & -> & Hy). rewrite Hv.
        destruct (IH args rb Hh' Ha' Hl' Hr Hag') as (rb' & E & A & B).
        { intros x Hx'. apply Hx. now right. }
        exists rb'. split; [destruct ra; exact E|]. split.
        * intros x [->|Hin] u Hu; auto.
          destruct (in_dec string_dec x (flat_map (fun a => match a with VVar x => [x] | _ => [] end) hargs))
            as [Hi|Hi].
          -- apply in_flat_map in Hi as (a & Ha1 & Hk). destruct a; simpl in Hk; try tauto.
             destruct Hk as [->|[]]. auto.
          -- rewrite B in Hu; [apply (Hx x); auto; now left|]. intros F. apply Hi.
             apply in_flat_map. exists (VVar x). simpl; auto.
        * intros x Hn. apply B. intros F. apply Hn. now right.
      + assert (Hinst : inst s ra = bound_value b v).
        { destruct (flat_arg_cases v (Ha v (or_introl eq_refl))) as [[y ->]|[Hv _]].
          - simpl in *. destruct (bget y b); auto. discriminate.
          - destruct v; try discriminate; simpl; auto. }
        destruct (flat_arg_cases ra (Hh ra (or_introl eq_refl))) as [[x ->]|[Hra Hrp]].
        * simpl in Hinst.
          assert (Hr' : plain_binding (bset x (bound_value b v) rb)).
          { intros k u. rewrite bget_bset. destruct (String.eqb x k); eauto. congruence. }
          destruct (IH args (bset x (bound_value b v) rb) Hh' Ha' Hl' Hr' Hag') as (rb' & E & A & B).
          { intros z Hz u. rewrite bget_bset. destruct (String.eqb_spec x z) as [<-|]; [congruence|].
            apply Hx. now right. }
          exists rb'. split.
          -- destruct (bget x rb) eqn:Er.
             ++ assert (v0 = bound_value b v) as -> by (rewrite <- Hinst; symmetry; apply (Hx x); auto; now left).
                rewrite py_eq_refl. destruct (bound_value b v); try discriminate; exact E.
             ++ destruct (bound_value b v); try discriminate; exact E.
          -- split.
             ++ intros z [[= <-]|Hin] u Hu; auto.
                destruct (in_dec string_dec x (flat_map (fun a => match a with VVar x => [x] | _ => [] end) hargs))
                  as [Hi|Hi].
                ** apply in_flat_map in Hi as (a & Ha1 & Hk). destruct a; simpl in Hk; try tauto.
                   destruct Hk as [->|[]]. auto.
                ** rewrite B in Hu; [rewrite bget_bset_same in Hu; congruence|]. intros F. apply Hi.
                   apply in_flat_map. exists (VVar x). simpl; auto.
             ++ intros z Hz. rewrite B; [|intros F; apply Hz; now right].
                apply bget_bset_other. intros ->. apply Hz. now left.
        * assert (ra = bound_value b v) as Era by (destruct ra; try discriminate; auto).
          destruct (IH args rb Hh' Ha' Hl' Hr Hag') as (rb' & E & A & B).
          { intros x Hx'. apply Hx. now right. }
          exists rb'. split.
          -- rewrite <- Era. destruct ra; try discriminate; rewrite py_eq_refl; exact E.
          -- split.
             ++ intros x [->|Hin]; [discriminate|auto].
             ++ intros x Hn. apply B. intros F. apply Hn. now right.
  Qed.

  (** the row of a solution is the instance of the head *)
  Lemma head_row_sound rb sol hargs : extends rb sol -> forall args row,
    (forall v, In v args -> flat_arg v) ->
    Forall2 (head_ok rb) hargs args ->
    head_row sol hargs args = Some row ->
    row = map (inst (asg sol)) hargs /\
    Forall2 (fun v y => match v with
             | VVar x => match bget x b with Some u => y = u | None => True end
             | _ => y = v end) args row.
  Proof.
    intros He. induction hargs as [|ra hargs IH]; intros args row Ha Hf H;
      inversion Hf as [|? v ? args' H1 H2]; subst.
    - simpl in H. injection H as <-. split; auto.
    - simpl in H.
      destruct (match v with VVar _ => match ra with VVar x => bget x sol | _ => Some ra end | _ => Some v end)
        as [y|] eqn:Ec; [|discriminate].
      destruct (head_row sol hargs args') as [r|] eqn:Er; [|discriminate].
      injection H as <-.
      destruct (IH args' r (fun v h => Ha v (or_intror h)) H2 Er) as [-> F2].
      assert (inst (asg sol) ra = y /\
         match v with VVar x => match bget x b with Some u => y = u | None => True end | _ => y = v end)
        as [Ei Ec'].
      { destruct H1 as [(x & -> & Hx)|H1].
        - rewrite Hx. split; auto. destruct ra; try (injection Ec as <-; reflexivity).
          simpl. unfold asg. now rewrite Ec.
        - destruct (flat_arg_cases v (Ha v (or_introl eq_refl))) as [[x ->]|[Hv Hp]].
          + simpl in H1. destruct (bget x b) eqn:Eb.
            * destruct ra; try (injection Ec as <-; split; auto; fail).
              simpl. unfold asg. rewrite (He _ _ H1) in *. injection Ec as <-. auto.
            * split; auto. destruct ra; try (injection Ec as <-; reflexivity).
              simpl. unfold asg. now rewrite Ec.
          + assert (y = v) as -> by (destruct v; try discriminate; injection Ec; auto).
            assert (bound_value b v = v) as Ebv by (destruct v; try discriminate; auto).
            rewrite Ebv in H1. split; [|destruct v; try discriminate; auto].
            destruct ra; simpl; auto. unfold asg. now rewrite (He _ _ H1). }
      split.
      + simpl. now rewrite Ei.
      + constructor; auto.
  Qed.

  Lemma head_row_total sol hargs : (forall x, In (VVar x) hargs -> bget x sol <> None) ->
    forall args, exists row, head_row sol hargs args = Some row.
  Proof.
    induction hargs as [|ra hargs IH]; intros Hx args.
    - simpl. eauto.
    - destruct args as [|v args]; [simpl; eauto|]. simpl.
      destruct (IH (fun x h => Hx x (or_intror h)) args) as [r ->].
      assert (exists y, (match v with VVar _ => match ra with VVar x => bget x sol | _ => Some ra end
                        | _ => Some v end) = Some y) as [y ->]; [|eauto].
      destruct v; eauto. destruct ra; eauto.
      destruct (bget name0 sol) eqn:E; eauto. exfalso. apply (Hx name0); auto. now left.
  Qed.
End Head.
