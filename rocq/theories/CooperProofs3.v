(** * Questions to the Cooper system and lessons for it *)

From Coq Require Import ZArith String Ascii List Bool Arith Lia.
From Verif Require Import Py PyFacts ReprProofs Effects EffectsFacts Solver Atoms Grammar Earley CoreModule CoreProofs InferenceModule Sql SqliteDataSource DataSpec SqliteProofs SqliteProofs2
  SimpleDataSource Memory MemoryProofs Generator Pipeline FragmentModel TalkModel SirModel SirProofs4 SirProofs5 CooperModel CooperSpec CooperProofs CooperProofs2.
Import ListNotations.
Local Open Scope nat_scope.
Local Open Scope string_scope.
Local Open Scope list_scope.

(** ** one after the other *)
Section Steps.
  Context {W : Type}.
  Variable mods : list (modul W).
  Lemma seq_unfold n a rest b (w : W) : rest <> [] -> solve mods (S n) (VList (a :: rest)) b w =
    bind (solve mods (S n) (VList [a]) b) (fun r => bind (sres_items r) (fun bs => bind (foldM (fun acc b' =>
         bind (solve mods (S n) (VList rest) b') (fun rr => bind (sres_items rr) (fun rs => ret (fold_left add_binding rs acc)))) [] bs)
         (fun result => ret (SList result)))) w.
  Proof. intros H. destruct rest as [|a' rest]; [contradiction|]. reflexivity. Qed.
  Lemma seq_one n a rest b b1 bs (w w1 w2 : W) : rest <> [] -> solve mods n (VList [a]) b w = (Ok (SList [b1]), w1) ->
    solve mods n (VList rest) b1 w1 = (Ok (SList bs), w2) -> exists bs', solve mods n (VList (a :: rest)) b w = (Ok (SList bs'), w2) /\ (bs <> [] -> bs' <> []).
  Proof.
    intros Hr E1 E2. destruct n as [|n]; [discriminate|]. exists (fold_left add_binding bs []). split.
    - rewrite seq_unfold by assumption. unfold bind at 1. rewrite E1. unfold bind at 1. cbn [sres_items ret foldM]. unfold bind at 1 2 3. rewrite E2. reflexivity.
    - intros Hb. destruct bs as [|x bs]; [contradiction|]. cbn [fold_left]. change (add_binding [] x) with [x].
      assert (H : forall l acc, acc <> [] -> fold_left add_binding l acc <> []).
      { induction l as [|y l IH]; intros acc Ha; [exact Ha|]. cbn [fold_left]. apply IH. unfold add_binding. destruct (dict_in y acc); [exact Ha|]. now destruct acc. }
      now apply H.
  Qed.
  (** the rest for each solution, where each leaves its mark on the state *)
  Lemma seq_many n a rest b {A} (f : A -> binding) (st : list string -> W) (g : A -> string) l l0 : rest <> [] ->
    solve mods n (VList [a]) b (st l0) = (Ok (SList (map f l)), st l0) ->
    (forall u l1, In u l -> exists bs, solve mods n (VList rest) (f u) (st l1) = (Ok (SList bs), st (l1 ++ [g u]))) ->
    exists bs', solve mods n (VList (a :: rest)) b (st l0) = (Ok (SList bs'), st (l0 ++ map g l)).
  Proof.
    intros Hr E1 E2. destruct n as [|n]; [discriminate|]. rewrite seq_unfold by assumption. unfold bind at 1. rewrite E1. unfold bind at 1. cbn [sres_items ret].
    assert (H : forall acc, exists r, foldM (fun acc b' => bind (solve mods (S n) (VList rest) b') (fun rr => bind (sres_items rr) (fun rs => ret (fold_left add_binding rs acc)))) acc (map f l) (st l0)
      = (Ok r, st (l0 ++ map g l))).
    { clear E1. revert l0. induction l as [|u l IH]; intros l0 acc; [exists acc; cbn; now rewrite app_nil_r|]. cbn [map foldM].
      destruct (E2 u l0 (or_introl eq_refl)) as (bs & E). unfold bind at 1 2. rewrite E. unfold bind at 1. cbn [sres_items ret].
      destruct (IH (fun u' l1 Hu => E2 u' l1 (or_intror Hu)) (l0 ++ [g u]) (fold_left add_binding bs acc)) as (r & Er). exists r. rewrite Er. now rewrite <- app_assoc. }
    destruct (H []) as (r & Er). unfold bind at 1. rewrite Er. exists r. reflexivity.
  Qed.
End Steps.

Lemma nonempty (a : value) l : a :: l <> [].
Proof. discriminate. Qed.

(** ** questions *)

Section Forms.
  Variables (name q E t1 t2 t3 t4 : string).
  Definition resolve_ : value := VTuple [VStr "resolve_name"; VStr name; VVar E].
  Definition let_true : value := VTuple [VStr "let"; VVar t2; VStr "true"].
  Definition quality_ : value := VTuple [VStr q; VVar E; VVar t1].
  Definition and_ (a b c : string) : value := VTuple [VStr "and_3v"; VVar a; VVar b; VVar c].
  Definition not_ (a b : string) : value := VTuple [VStr "not_3v"; VVar a; VVar b].
  Definition check_ : value := VTuple [VStr "sentence_check"; VVar t3].

  (** what is executed for sentences about a named thing: "X is a N", "X is A", "X is
      not a N" and "X is not A"; [true] when it is the quality that makes it true *)
  Inductive asks : bool -> list value -> Prop :=
  | asks_is_a : asks true [resolve_; let_true; quality_; and_ t1 t2 t3; check_]
  | asks_is : asks true [resolve_; let_true; quality_; and_ t2 t1 t3; check_]
  | asks_is_not_a : asks false [resolve_; VTuple [VStr "scoped"; VList [let_true]]; quality_; not_ t1 t3; check_]
  | asks_is_not : asks false [resolve_; let_true; quality_; and_ t2 t1 t4; not_ t4 t3; check_].
End Forms.

(** executing these atoms and giving the reply *)
Definition run (n : nat) (atoms : list value) (w : cooper) : outcome value * cooper :=
  match solve cooper_mods n (VList atoms) [] w with
  | (Ok _, w1) => generate_output (grammar_rules cooper_replies) (solve cooper_mods n) co_out_lens n w1
  | (Exn e, w1) => (Exn e, w1)
  | (OutOfFuel, w1) => (OutOfFuel, w1)
  end.

Lemma and3_true u : In u three -> and3 u "true" = u /\ and3 "true" u = u.
Proof. intros H. repeat (destruct H as [<-|H]; [split; reflexivity|]). destruct H. Qed.

Section Answers.
  Variables (w : cooper) (names aliases : list (string * string)) (facts : string -> list (string * bool)) (rules : list taught) (rank : string -> bool -> nat).
  Hypothesis C : classroom w names aliases facts rules.
  Hypothesis Hrank : well_founded_rules rules rank.
  Variables (name e q E t1 t2 t3 t4 : string).
  Hypothesis Hl : lower name = name.
  Hypothesis Hn : is_named names aliases name e.
  Hypothesis Hq : In q qualities.
  Hypothesis Hd : NoDup [E; t1; t2; t3; t4].

  Let C' l : classroom (with_out w (said l)) names aliases facts rules := classroom_out w (said l) names aliases facts rules C.

  Lemma distinct : E <> t1 /\ E <> t2 /\ E <> t3 /\ E <> t4 /\ t1 <> t2 /\ t1 <> t3 /\ t1 <> t4 /\ t2 <> t3 /\ t2 <> t4 /\ t3 <> t4.
  Proof. repeat match goal with H : NoDup (_ :: _) |- _ => inversion H; clear H; subst end. cbn in *. intuition (subst; tauto). Qed.

  (** the part of the reply *)
  Lemma outcome_of l : l <> [] -> (forall u, In u l -> In u three) -> (forall v, In (truth_text v) l <-> follows facts rules e q v) ->
    exists r, reply_of l = Some r /\ reply_to facts rules e q true r.
  Proof.
    intros Hne H3 Hf. unfold reply_of. cbn [first_said].
    assert (Eo : forall t, existsb (fun u => String.eqb u t) l = true <-> In t l).
    { intros t. rewrite existsb_exists. split; [intros (u & Hu & Eu); apply String.eqb_eq in Eu as ->; exact Hu|intros H; exists t; split; [exact H|apply String.eqb_refl]]. }
    destruct (existsb (fun u => String.eqb u "ok") l) eqn:E1; [apply Eo, H3 in E1; cbn in E1; intuition discriminate|].
    destruct (existsb (fun u => String.eqb u "true") l) eqn:E2.
    { exists "True". split; [reflexivity|]. apply so. now apply (Hf true), Eo. }
    destruct (existsb (fun u => String.eqb u "false") l) eqn:E3.
    { exists "False". split; [reflexivity|]. apply not_so; [|apply (Hf false), Eo, E3]. intros H. apply (Hf true) in H. apply Eo in H. cbn [truth_text negb] in H. congruence. }
    destruct (existsb (fun u => String.eqb u "unknown") l) eqn:E4.
    { exists "Unable to answer". split; [reflexivity|]. apply not_known; intros H; [apply (Hf true) in H|apply (Hf false) in H]; apply Eo in H; cbn [truth_text negb] in H; congruence. }
    exfalso. destruct l as [|u l]; [contradiction|]. specialize (H3 u (or_introl eq_refl)).
    assert (Hu : In u (u :: l)) by now left. apply Eo in Hu. cbn in H3. destruct H3 as [<-|[<-|[<-|[]]]]; congruence.
  Qed.
  Lemma outcome_not l : l <> [] -> (forall u, In u l -> In u three) -> (forall v, In (truth_text v) l <-> follows facts rules e q v) ->
    exists r, reply_of (map not3 l) = Some r /\ reply_to facts rules e q false r.
  Proof.
    intros Hne H3 Hf.
    assert (Hm : forall v, In (truth_text v) (map not3 l) <-> In (truth_text (negb v)) l).
    { intros v. rewrite in_map_iff. split.
      - intros (u & Eu & Hu). pose proof (H3 u Hu) as H. cbn in H. destruct H as [<-|[<-|[<-|[]]]]; destruct v; try discriminate; exact Hu.
      - intros H. exists (truth_text (negb v)). split; [now destruct v|exact H]. }
    unfold reply_of. cbn [first_said].
    assert (Eo : forall t, existsb (fun u => String.eqb u t) (map not3 l) = true <-> In t (map not3 l)).
    { intros t. rewrite existsb_exists. split; [intros (u & Hu & Eu); apply String.eqb_eq in Eu as ->; exact Hu|intros H; exists t; split; [exact H|apply String.eqb_refl]]. }
    assert (Hm3 : forall u, In u (map not3 l) -> In u three).
    { intros u Hu. apply in_map_iff in Hu as (x & <- & Hx). apply H3 in Hx. cbn in Hx. destruct Hx as [<-|[<-|[<-|[]]]]; cbn; auto. }
    destruct (existsb (fun u => String.eqb u "ok") (map not3 l)) eqn:E1; [apply Eo, Hm3 in E1; cbn in E1; intuition discriminate|].
    destruct (existsb (fun u => String.eqb u "true") (map not3 l)) eqn:E2.
    { exists "True". split; [reflexivity|]. apply so. apply (Hf false). apply Eo in E2. now apply (Hm true) in E2. }
    assert (Nf : ~ follows facts rules e q false).
    { intros H. apply (Hf false) in H. apply (Hm true) in H. apply Eo in H. cbn [truth_text negb] in H. congruence. }
    destruct (existsb (fun u => String.eqb u "false") (map not3 l)) eqn:E3.
    { exists "False". split; [reflexivity|]. apply not_so; [exact Nf|]. apply (Hf true). apply Eo in E3. now apply (Hm false) in E3. }
    assert (Nt : ~ follows facts rules e q true).
    { intros H. apply (Hf true) in H. apply (Hm false) in H. apply Eo in H. cbn [truth_text negb] in H. congruence. }
    destruct (existsb (fun u => String.eqb u "unknown") (map not3 l)) eqn:E4.
    { exists "Unable to answer". split; [reflexivity|]. now apply not_known. }
    exfalso. destruct l as [|u l]; [contradiction|].
    assert (Hu : In (not3 u) (map not3 (u :: l))) by now left. pose proof (Hm3 _ Hu) as H. apply Eo in Hu. destruct H as [H|[H|[H|[]]]]; rewrite <- H in Hu; congruence.
  Qed.

  Theorem answered n v atoms : co_out w = [] -> rank q true < n -> rank q false < n -> 4 <= n -> asks name q E t1 t2 t3 t4 v atoms ->
    exists r, run n atoms w = (Ok (VStr r), w) /\ reply_to facts rules e q v r.
  Proof.
    intros Ho Ht Hf H4 Ha. destruct distinct as (D1 & D2 & D3 & D4 & D5 & D6 & D7 & D8 & D9 & D10).
    assert (Ew : w = with_out w (said [])) by (destruct w; cbn in Ho; now rewrite Ho).
    destruct n as [|[|[|[|m]]]]; try lia. set (n := S (S (S (S m)))) in *.
    (* the name *)
    assert (R1 : solve cooper_mods n (VList [resolve_ name E]) [] w = (Ok (SList [[(E, VStr e)]]), w)).
    { subst n. unfold resolve_. rewrite (resolve_known w names aliases facts rules C _ name e E [] Hl Hn eq_refl). reflexivity. }
    (* one truth value asked *)
    assert (Q : forall b, bget E b = Some (VStr e) -> bget t1 b = None -> exists l,
      solve cooper_mods n (VList [quality_ q E t1]) b (with_out w (said [])) = (Ok (SList (map (fun u => bset t1 (VStr u) b) l)), with_out w (said [])) /\ l <> [] /\ NoDup l /\
      (forall u, In u l -> In u three) /\ (forall v, In (truth_text v) l <-> follows facts rules e q v)).
    { intros b Hb Hb1. rewrite <- Ew. apply (quality_asked w facts rules (cl_knows _ _ _ _ _ C) rank Hrank n q e t1 (VVar E) b Hq Ht Hf); [|exact Hb1].
      right. exists E. auto. }
    assert (Fin : forall b g rest, (rest <> []) -> (forall u, In u three -> In (g u) three) -> bget E b = Some (VStr e) -> bget t1 b = None ->
      (forall u l1, In u three -> exists bs, solve cooper_mods n (VList rest) (bset t1 (VStr u) b) (with_out w (said l1)) = (Ok (SList bs), with_out w (said (l1 ++ [g u])))) ->
      exists bs l, solve cooper_mods n (VList (quality_ q E t1 :: rest)) b w = (Ok (SList bs), with_out w (said (map g l))) /\ l <> [] /\
        (forall u, In u l -> In u three) /\ (forall v, In (truth_text v) l <-> follows facts rules e q v)).
    { intros b g rest Hne Hg Hb Hb1 Hrest. destruct (Q b Hb Hb1) as (l & El & Hln & _ & H3 & Hfo).
      destruct (seq_many cooper_mods n (quality_ q E t1) rest b (fun u => bset t1 (VStr u) b) (fun l => with_out w (said l)) g l [] Hne El) as (bs & Eb).
      - intros u l1 Hu. apply Hrest. now apply H3.
      - exists bs, l. rewrite Ew at 1. split; [exact Eb|auto]. }
    assert (Reply : forall l r, (forall u, In u l -> In u three) -> reply_of l = Some r ->
      generate_output (grammar_rules cooper_replies) (solve cooper_mods n) co_out_lens n (with_out w (said l)) = (Ok (VStr r), w)).
    { intros l r H3 Hr. subst n. pose proof (reply_run w names aliases facts rules C (S (S (S m))) l r) as Er. change (1 + S (S (S m))) with (S (S (S (S m)))) in Er.
      rewrite Er; [|intros u Hu; right; now apply H3|exact Hr]. f_equal. symmetry. exact Ew. }
    assert (Bset : forall x y v b, x <> y -> bget x (bset y v b) = bget x b) by (intros; apply bget_bset_other; congruence).
    assert (L2 : forall b, bget t2 b = None -> solve cooper_mods n (VList [let_true t2]) b w = (Ok (SList [bset t2 (VStr "true") b]), w)).
    { intros b Hb. subst n. unfold let_true. apply (plain_let w names aliases facts rules C). exact Hb. }
    assert (Check : forall b u l, bget t3 b = Some (VStr u) -> solve cooper_mods n (VList [check_ t3]) b (with_out w (said l)) = (Ok (SList [b]), with_out w (said (l ++ [u])))).
    { intros b u l Hb. subst n. apply (check_run w names aliases facts rules C (S m)). exact Hb. }
    assert (And : forall a b0 c u v0 b l, In u three -> In v0 three -> bget a b = Some (VStr u) -> bget b0 b = Some (VStr v0) -> bget c b = None ->
      solve cooper_mods n (VList [and_ a b0 c]) b (with_out w (said l)) = (Ok (SList [bset c (VStr (and3 u v0)) b]), with_out w (said l))).
    { intros. subst n. eapply (and_run (with_out w (said l))); eauto. }
    assert (Not : forall a c u b l, In u three -> bget a b = Some (VStr u) -> bget c b = None ->
      solve cooper_mods n (VList [not_ a c]) b (with_out w (said l)) = (Ok (SList [bset c (VStr (not3 u)) b]), with_out w (said l))).
    { intros. subst n. eapply (not_run (with_out w (said l))); eauto. }
    set (b1 := [(E, VStr e)]) in *. set (b2 := bset t2 (VStr "true") b1).
    assert (G : forall x, x <> E -> bget x b1 = None) by (intros x Hx; cbn; destruct (String.eqb_spec x E); [contradiction|reflexivity]).
    assert (GE : bget E b1 = Some (VStr e)) by (cbn; now rewrite String.eqb_refl).
    assert (G2 : bget E b2 = Some (VStr e) /\ bget t1 b2 = None /\ bget t2 b2 = Some (VStr "true") /\ bget t3 b2 = None /\ bget t4 b2 = None).
    { unfold b2. rewrite bget_bset_same. repeat split; rewrite Bset by congruence; try exact GE; apply G; congruence. }
    destruct G2 as (G21 & G22 & G23 & G24 & G25).
    assert (Tt : In "true" three) by now left.
    destruct Ha.
    - (* X is a N *)
      destruct (Fin b2 (fun u => u) [and_ t1 t2 t3; check_ t3]) as (bs & l & Es & Hln & H3 & Hfo); [discriminate|auto|exact G21|exact G22| |].
      { intros u l1 Hu. destruct (seq_one cooper_mods n (and_ t1 t2 t3) [check_ t3] (bset t1 (VStr u) b2) (bset t3 (VStr u) (bset t1 (VStr u) b2)) [bset t3 (VStr u) (bset t1 (VStr u) b2)] (with_out w (said l1)) (with_out w (said l1)) (with_out w (said (l1 ++ [u])))) as (bs & Eb & _).
        - discriminate.
        - rewrite (And t1 t2 t3 u "true"); [|exact Hu|exact Tt|apply bget_bset_same|rewrite Bset by congruence; exact G23|rewrite Bset by congruence; exact G24]. now rewrite (proj1 (and3_true u Hu)).
        - apply Check, bget_bset_same.
        - now exists bs. }
      rewrite map_id in Es. destruct (seq_one cooper_mods n _ _ _ _ _ _ _ _ (nonempty _ _) (L2 b1 (G t2 ltac:(congruence))) Es) as (bs1 & E1 & _).
      destruct (seq_one cooper_mods n _ _ _ _ _ _ _ _ (nonempty _ _) R1 E1) as (bs0 & E0 & _).
      destruct (outcome_of l Hln H3 Hfo) as (r & Hr & Hrep). exists r. split; [|exact Hrep]. unfold run. rewrite E0. now apply Reply.
    - (* X is A *)
      destruct (Fin b2 (fun u => u) [and_ t2 t1 t3; check_ t3]) as (bs & l & Es & Hln & H3 & Hfo); [discriminate|auto|exact G21|exact G22| |].
      { intros u l1 Hu. destruct (seq_one cooper_mods n (and_ t2 t1 t3) [check_ t3] (bset t1 (VStr u) b2) (bset t3 (VStr u) (bset t1 (VStr u) b2)) [bset t3 (VStr u) (bset t1 (VStr u) b2)] (with_out w (said l1)) (with_out w (said l1)) (with_out w (said (l1 ++ [u])))) as (bs & Eb & _).
        - discriminate.
        - rewrite (And t2 t1 t3 "true" u); [|exact Tt|exact Hu|rewrite Bset by congruence; exact G23|apply bget_bset_same|rewrite Bset by congruence; exact G24]. now rewrite (proj2 (and3_true u Hu)).
        - apply Check, bget_bset_same.
        - now exists bs. }
      rewrite map_id in Es. destruct (seq_one cooper_mods n _ _ _ _ _ _ _ _ (nonempty _ _) (L2 b1 (G t2 ltac:(congruence))) Es) as (bs1 & E1 & _).
      destruct (seq_one cooper_mods n _ _ _ _ _ _ _ _ (nonempty _ _) R1 E1) as (bs0 & E0 & _).
      destruct (outcome_of l Hln H3 Hfo) as (r & Hr & Hrep). exists r. split; [|exact Hrep]. unfold run. rewrite E0. now apply Reply.
    - (* X is not a N *)
      assert (N3 : forall u, In u three -> In (not3 u) three) by (intros u Hu; cbn in Hu; destruct Hu as [<-|[<-|[<-|[]]]]; cbn; auto).
      destruct (Fin b1 not3 [not_ t1 t3; check_ t3]) as (bs & l & Es & Hln & H3 & Hfo); [discriminate|exact N3|exact GE|apply G; congruence| |].
      { intros u l1 Hu. destruct (seq_one cooper_mods n (not_ t1 t3) [check_ t3] (bset t1 (VStr u) b1) (bset t3 (VStr (not3 u)) (bset t1 (VStr u) b1)) [bset t3 (VStr (not3 u)) (bset t1 (VStr u) b1)] (with_out w (said l1)) (with_out w (said l1)) (with_out w (said (l1 ++ [not3 u])))) as (bs & Eb & _).
        - discriminate.
        - apply Not; [exact Hu|apply bget_bset_same|rewrite Bset by congruence; apply G; congruence].
        - apply Check, bget_bset_same.
        - now exists bs. }
      assert (Sc : solve cooper_mods n (VList [VTuple [VStr "scoped"; VList [let_true t2]]]) b1 w = (Ok (SList [b1]), w)).
      { subst n. eapply (scoped_run w names aliases facts rules C); [apply (plain_let w names aliases facts rules C); apply G; congruence|discriminate]. }
      destruct (seq_one cooper_mods n _ _ _ _ _ _ _ _ (nonempty _ _) Sc Es) as (bs1 & E1 & _).
      destruct (seq_one cooper_mods n _ _ _ _ _ _ _ _ (nonempty _ _) R1 E1) as (bs0 & E0 & _).
      destruct (outcome_not l Hln H3 Hfo) as (r & Hr & Hrep). exists r. split; [|exact Hrep]. unfold run. rewrite E0. apply Reply; [|exact Hr].
      intros u Hu. apply in_map_iff in Hu as (x & <- & Hx). auto.
    - (* X is not A *)
      assert (N3 : forall u, In u three -> In (not3 u) three) by (intros u Hu; cbn in Hu; destruct Hu as [<-|[<-|[<-|[]]]]; cbn; auto).
      destruct (Fin b2 not3 [and_ t2 t1 t4; not_ t4 t3; check_ t3]) as (bs & l & Es & Hln & H3 & Hfo); [discriminate|exact N3|exact G21|exact G22| |].
      { intros u l1 Hu. set (b3 := bset t1 (VStr u) b2). set (b4 := bset t4 (VStr u) b3). set (b5 := bset t3 (VStr (not3 u)) b4).
        assert (E2 : solve cooper_mods n (VList [and_ t2 t1 t4]) b3 (with_out w (said l1)) = (Ok (SList [b4]), with_out w (said l1))).
        { rewrite (And t2 t1 t4 "true" u); [|exact Tt|exact Hu|unfold b3; rewrite Bset by congruence; exact G23|apply bget_bset_same|unfold b3; rewrite Bset by congruence; exact G25].
          unfold b4. now rewrite (proj2 (and3_true u Hu)). }
        assert (E3 : solve cooper_mods n (VList [not_ t4 t3]) b4 (with_out w (said l1)) = (Ok (SList [b5]), with_out w (said l1))).
        { apply Not; [exact Hu|apply bget_bset_same|]. unfold b4, b3. rewrite !Bset by congruence. exact G24. }
        assert (E4 : solve cooper_mods n (VList [check_ t3]) b5 (with_out w (said l1)) = (Ok (SList [b5]), with_out w (said (l1 ++ [not3 u])))) by (apply Check, bget_bset_same).
        destruct (seq_one cooper_mods n _ _ _ _ _ _ _ _ (nonempty _ _) E3 E4) as (bs3 & E34 & _).
        destruct (seq_one cooper_mods n _ _ _ _ _ _ _ _ (nonempty _ _) E2 E34) as (bs2 & E234 & _). now exists bs2. }
      destruct (seq_one cooper_mods n _ _ _ _ _ _ _ _ (nonempty _ _) (L2 b1 (G t2 ltac:(congruence))) Es) as (bs1 & E1 & _).
      destruct (seq_one cooper_mods n _ _ _ _ _ _ _ _ (nonempty _ _) R1 E1) as (bs0 & E0 & _).
      destruct (outcome_not l Hln H3 Hfo) as (r & Hr & Hrep). exists r. split; [|exact Hrep]. unfold run. rewrite E0. apply Reply; [|exact Hr].
      intros u Hu. apply in_map_iff in Hu as (x & <- & Hx). auto.
  Qed.
End Answers.
