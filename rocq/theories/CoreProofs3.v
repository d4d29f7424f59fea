(** * Proofs about the core predicates, part 3: store, destructure, all *)

From Coq Require Import ZArith QArith Qreduction String Ascii List Bool Lia Arith.
From Verif Require Import Py PyFacts ReprProofs Effects EffectsFacts Solver SolverSpec
  SolverProofs SolverProofs2 MatchProofs MatchProofs2 Atoms AtomsFacts CoreModule CoreSpec CoreProofs CoreProofs2.
Import ListNotations.
Local Close Scope Q_scope.
Local Open Scope nat_scope.
Local Open Scope string_scope.
Local Open Scope list_scope.

Lemma substituted_bind b t t' : substituted b t t' -> bind_variables t b = t'.
Proof.
  revert t'. induction t using value_ind'; intros t' Hs; try (inversion Hs; subst; reflexivity).
  - inversion Hs; subst; simpl; auto.
    + now rewrite H0.
    + now rewrite H0.
    + exfalso. eapply H; eauto.
  - inversion Hs as [| | |? l' HF|? ? ? HT]; subst.
    + simpl. f_equal. clear Hs. revert l' HF. induction H as [|x l Hx Hl IH]; intros l' HF; inversion HF; subst; auto.
      simpl. f_equal; auto.
    + exfalso. eapply HT; eauto.
  - inversion Hs as [| |? l' HF| |? ? HL]; subst.
    + simpl. f_equal. clear Hs. revert l' HF. induction H as [|x l Hx Hl IH]; intros l' HF; inversion HF; subst; auto.
      simpl. f_equal; auto.
    + exfalso. eapply HL; eauto.
Qed.

Lemma substituted_bind_list b l l' : Forall2 (substituted b) l l' -> map (fun t => bind_variables t b) l = l'.
Proof. induction 1; simpl; auto. f_equal; auto. now apply substituted_bind. Qed.

Lemma bind_substituted b t : substituted b t (bind_variables t b).
Proof.
  induction t using value_ind'; simpl; try (apply sub_other; discriminate).
  - destruct (bget s b) eqn:E; [now apply sub_bound|now apply sub_unbound].
  - apply sub_tuple. induction H; simpl; constructor; auto.
  - apply sub_list. induction H; simpl; constructor; auto.
Qed.

Definition is_list (v : value) : bool := match v with VList _ => true | _ => false end.

Section Core3.
  Context {W : Type}.
  Variable mods : list (modul W).

  Ltac core q := erewrite (core_solve _ _ _ q) by (try eassumption; try reflexivity; discriminate).

  (** ** C24 *)

  Lemma write_rels_performs sv p args (w0 : W) : forall ms w w1,
    performs (write_actions ms w0 sv p args) w w1 ->
    write_rels sv (find_relations_in ms w0 p) args w = (Ok tt, w1).
  Proof.
    induction ms as [|m ms IH]; simpl; intros w w1 H.
    - inversion H; subst. reflexivity.
    - destruct (m w0 p) as [rel|]; [|now apply IH].
      simpl. unfold bind. destruct (r_write rel) as [f|].
      + inversion H as [|? ? ? ? ? Ha Hr]; subst. rewrite Ha. now apply IH.
      + simpl. now apply IH.
  Qed.

  Lemma find_relations_known p (w : W) : (exists m, In m mods /\ m w p <> None) ->
    exists rel rels, find_relations mods w p = rel :: rels.
  Proof.
    unfold find_relations. intros (m & Hm & Hn). induction mods as [|m0 ms IH]; [destruct Hm|].
    simpl. destruct (m0 w p) eqn:E; eauto. destruct Hm as [->|Hm]; [congruence|auto].
  Qed.

  Lemma write_atom_performs n p args (w w1 : W) :
    (exists m, In m mods /\ m w p <> None) ->
    performs (write_actions mods w (solver_at mods n) p args) w w1 ->
    write_atom mods (S n) (VTuple (VStr p :: args)) w = (Ok tt, w1).
  Proof.
    intros Hk Hp. apply write_rels_performs in Hp.
    unfold write_atom. simpl. unfold write_F, bind. simpl. unfold get.
    destruct (find_relations_known p w Hk) as (rel & rels & E).
    unfold find_relations in *. rewrite E in *. exact Hp.
  Qed.

  Lemma stores_fold n atoms (w w' : W) : stores mods (solver_at mods n) atoms w w' ->
    foldM (fun _ atom => write_atom mods (S n) atom) tt atoms w = (Ok tt, w').
  Proof.
    induction 1; [reflexivity|]. simpl. erewrite bind_ok_intro by (eapply write_atom_performs; eauto).
    exact IHstores.
  Qed.

  Lemma solve_store n atoms atoms' b (w w' : W) : only_core mods w "store" ->
    Forall2 (substituted b) atoms atoms' ->
    stores mods (solver_at mods n) atoms' w w' ->
    solve mods (S (S n)) (VList [VTuple [VStr "store"; VList atoms]]) b w = (Ok (SList [b]), w').
  Proof.
    intros H Hs Hst. core (@q_store W). apply stores_fold in Hst. apply substituted_bind_list in Hs.
    unfold q_store, item. unfold bind at 1 2. cbn [db_values map db_value nth_error ret c_binding].
    unfold bind at 1. rewrite Hs. change (sv_write (solver_at mods (S n))) with (write_atom mods (S n)).
    rewrite Hst. reflexivity.
  Qed.

  Lemma solve_store_fails n atoms b (w : W) done bad rest w1 e w2 : only_core mods w "store" ->
    Forall2 (substituted b) atoms (done ++ bad :: rest) ->
    stores mods (solver_at mods n) done w w1 ->
    write_atom mods (S n) bad w1 = (Exn e, w2) ->
    solve mods (S (S n)) (VList [VTuple [VStr "store"; VList atoms]]) b w = (Exn e, w2).
  Proof.
    intros H Hs Hst Hb. core (@q_store W). apply stores_fold in Hst. apply substituted_bind_list in Hs.
    unfold q_store, item. unfold bind at 1 2. cbn [db_values map db_value nth_error ret c_binding].
    unfold bind at 1. rewrite Hs. change (sv_write (solver_at mods (S n))) with (write_atom mods (S n)).
    assert (E : forall l u (w0 : W) wa, foldM (fun _ atom => write_atom mods (S n) atom) u l w0 = (Ok tt, wa) ->
      foldM (fun _ atom => write_atom mods (S n) atom) u (l ++ bad :: rest) w0 =
      foldM (fun _ atom => write_atom mods (S n) atom) tt (bad :: rest) wa).
    { clear. induction l as [|x l IH]; intros u w0 wa Hf; cbn [app].
      - inv_ret Hf. reflexivity.
      - cbn [foldM] in *. unfold bind in *.
        destruct (write_atom mods (S n) x w0) as [[[]|e|] w1]; try discriminate. now apply IH. }
    rewrite (E _ _ _ _ Hst). cbn [foldM]. unfold bind. rewrite Hb. reflexivity.
  Qed.

  (** ** C25 *)

  (** the terms of the atom agree with the structure *)
  Definition agrees (terms structure : list value) : Prop :=
    Forall2 (fun a s => (exists x, s = VVar x) \/ py_eq a s = true) terms structure.

  Lemma destructure_agrees terms structure : agrees terms structure ->
    exists r, destructure_terms terms structure = Some r /\ Forall2 (fun t u => py_eq t u = true) r terms.
  Proof.
    induction 1 as [|a s terms structure Ha H (r & Hr & Hf)]; simpl; [exists []; auto|].
    destruct (py_eq a s) eqn:E.
    - rewrite Hr. eexists; split; [reflexivity|]. constructor; auto. now rewrite py_eq_sym.
    - destruct Ha as [(x & ->)|]; [|congruence]. rewrite Hr. eexists; split; [reflexivity|].
      constructor; auto. apply py_eq_refl.
  Qed.

  Lemma destructure_disagrees terms : forall structure, length terms = length structure ->
    ~ agrees terms structure -> destructure_terms terms structure = None.
  Proof.
    induction terms as [|a terms IH]; intros [|s structure] Hl Hn; simpl in *; try discriminate.
    - exfalso. apply Hn. constructor.
    - destruct (py_eq a s) eqn:E.
      + rewrite IH; auto. intros F. apply Hn. constructor; auto.
      + destruct s; auto. rewrite IH; auto. intros F. apply Hn. constructor; eauto.
  Qed.

  Lemma row_fits_equal b args row row' r :
    Forall2 (fun t u => py_eq t u = true) row row' -> row_fits b args row r -> row_fits b args row' r.
  Proof.
    intros Hf [A1 A2 A3 A4].
    assert (N : forall i v, nth_error row i = Some v -> exists v', nth_error row' i = Some v' /\ py_eq v v' = true).
    { clear A2 A3. induction Hf; intros [|i] v Hv; simpl in *; try discriminate.
      - injection Hv as <-. eauto.
      - eauto. }
    constructor; auto.
    - intros i x Hi Hx. destruct (A2 i x Hi Hx) as (v & Hv & Ho). destruct (N i v Hv) as (v' & Hv' & He).
      exists v'. split; auto. eapply opt_eq_trans; eauto.
    - intros i arg Hi Ha. destruct (A3 i arg Hi Ha) as (v & Hv & Ho). destruct (N i v Hv) as (v' & Hv' & He).
      exists v'. split; auto. destruct Ho as [->|Ho]; [left; destruct v'; auto; discriminate|right; eapply py_eq_trans; eauto].
  Qed.

  (** one row *)
  Lemma finish_one_row args b row (w : W) : length row = length args ->
    exists l, finish args b (QRows [VList row]) w = (Ok (SList l), w) /\
      (forall r, mem r l <-> row_fits b args row r) /\ length l <= 1.
  Proof.
    intros Hl. rewrite finish_row by assumption.
    destruct (match_args_total row b args 0 b false w) as (r & c & Hm); [lia|].
    unfold bind. rewrite Hm. eexists. split; [reflexivity|]. cbn [fst snd].
    destruct c; (split; [|simpl; lia]).
    - intros r'. split; [intros (x & [] & _)|]. intros F. pose proof (fits_match _ _ _ _ _ _ _ _ Hm F). discriminate.
    - pose proof (match_fits _ _ _ _ _ _ Hm) as Hf. intros r'. split.
      + intros (x & [<-|[]] & E). eapply row_fits_eq; eauto.
      + intros F. exists r. split; [now left|]. eapply row_fits_unique; eauto.
  Qed.

  Lemma solve_destructure n terms terms' structure b (w : W) : only_core mods w "destructure" ->
    Forall2 (substituted b) terms terms' -> agrees terms' structure ->
    exists l, solve mods (S n) (VList [VTuple (VStr "destructure" :: VList [VTuple terms] :: structure)]) b w
              = (Ok (SList l), w) /\ length l <= 1 /\
      forall r, mem r l <-> row_fits b (VList [VTuple terms] :: structure) (VNone :: terms') r.
  Proof.
    intros H Hs Ha. core (@q_destructure W). apply substituted_bind_list in Hs.
    unfold q_destructure, item. unfold bind. cbn [db_values map db_value nth_error ret c_binding c_args tl bind_variables first_item].
    rewrite Hs.
    assert (length terms' = length structure) as El by (clear -Ha; induction Ha; simpl; auto).
    rewrite El, Nat.eqb_refl. destruct (destructure_agrees terms' structure Ha) as (row & -> & Hf).
    unfold rows, ret. cbn [map].
    assert (length row = length structure) as Er by (rewrite <- El; clear -Hf; induction Hf; simpl; auto).
    destruct (finish_one_row (VList [VTuple terms] :: structure) b (VNone :: row) w) as (l & Hl & Hm & Hlen); [simpl; lia|].
    exists l. split; [exact Hl|split; [exact Hlen|]]. intros r. rewrite Hm. split; apply row_fits_equal; constructor; auto.
    clear -Hf. induction Hf; constructor; auto. now rewrite py_eq_sym.
  Qed.

  (** a row of [None]s binds each unbound variable to [None] *)
  Fixpoint all_none (b : binding) (args : list value) (r : binding) : binding :=
    match args with
    | [] => r
    | VVar x :: rest => all_none b rest (set_unbound b x VNone r)
    | _ :: rest => all_none b rest r
    end.

  Lemma finish_none args b (w : W) :
    finish args b (QRows [VList (map (fun _ => VNone) args)]) w = (Ok (SList [all_none b args b]), w).
  Proof.
    rewrite finish_row by apply map_length.
    assert (G : forall rest done r, (forall x, bget x b = None -> bget x r = None \/ bget x r = Some VNone) ->
      match_args (VList (map (fun _ => VNone) (done ++ rest))) b (length done) rest r false w
      = (Ok (all_none b rest r, false), w)).
    { induction rest as [|a rest IH]; intros done r Hr; [reflexivity|].
      assert (En : nth_error (map (fun _ => VNone) (done ++ a :: rest)) (length done) = Some VNone).
      { rewrite map_app, nth_error_app2; rewrite map_length; auto. now rewrite Nat.sub_diag. }
      specialize (IH (done ++ [a])). rewrite app_length, Nat.add_1_r, <- app_assoc in IH. cbn [app] in IH.
      destruct (is_var a) eqn:E.
      - destruct a; try discriminate. cbn [all_none]. unfold set_unbound. destruct (bget name b) eqn:Eb.
        + erewrite match_args_bound by eassumption. now apply IH.
        + rewrite match_args_unbound by assumption.
          erewrite bind_ok_intro by (apply subscript_nth; exact En). cbv beta.
          replace (false || match bget name r with Some old => negb (py_eq old VNone) | None => false end) with false.
          2:{ destruct (Hr name Eb) as [-> | ->]; reflexivity. }
          apply IH. intros x Hx. rewrite bget_bset. destruct (String.eqb name x); auto.
      - rewrite match_args_const by assumption.
        erewrite bind_ok_intro by (apply subscript_nth; exact En). cbn [is_none negb andb orb].
        rewrite IH by assumption. destruct a; try discriminate; reflexivity. }
    unfold bind. pose proof (G args [] b) as G0. cbn [app length] in G0. rewrite G0; [reflexivity|auto].
  Qed.

  Lemma solve_destructure_mismatch n terms terms' structure b (w : W) : only_core mods w "destructure" ->
    Forall2 (substituted b) terms terms' -> ~ agrees terms' structure ->
    solve mods (S n) (VList [VTuple (VStr "destructure" :: VList [VTuple terms] :: structure)]) b w
    = (Ok (SList [all_none b structure b]), w).
  Proof.
    intros H Hs Ha. core (@q_destructure W). apply substituted_bind_list in Hs.
    unfold q_destructure, item. unfold bind. cbn [db_values map db_value nth_error ret c_binding c_args tl bind_variables first_item].
    rewrite Hs.
    assert (F : finish (VList [VTuple terms] :: structure) b (QRows (map VList [VNone :: map (fun _ => VNone) structure])) w
      = (Ok (SList [all_none b structure b]), w)).
    { exact (finish_none (VList [VTuple terms] :: structure) b w). }
    destruct (Nat.eqb_spec (length terms') (length structure)) as [El|El]; [|exact F].
    rewrite destructure_disagrees by assumption. exact F.
  Qed.

  (** ** C16 *)

  Lemma all_entities x rs : forall es acc (w : W), Forall2 (fun r e => bget x r = Some e) rs es ->
    foldM (entity_of (VVar x)) acc rs w = (Ok (acc ++ es), w).
  Proof.
    induction rs as [|r rs IH]; intros es acc w Hf; inversion Hf as [|? e ? es' He Hes]; subst; simpl; [now rewrite app_nil_r|].
    unfold entity_of at 1. unfold bind. simpl. unfold lookup. rewrite He. cbn [ret].
    erewrite IH by eassumption. now rewrite <- app_assoc.
  Qed.

  Lemma all_distinct es : forall acc kept (w : W), Forall (fun e => hashable e = true) es ->
    first_values (rev acc) es kept ->
    foldM oset_add acc es w = (Ok (acc ++ kept), w).
  Proof.
    induction es as [|e es IH]; intros acc kept w Hh Hk; simpl.
    - inversion Hk; subst. now rewrite app_nil_r.
    - inversion Hh; subst. unfold bind, oset_add at 1. rewrite H1. cbn [ret].
      inversion Hk as [|? ? y ? ? Hy He Hk'|? ? ? kept' Hn Hk']; subst.
      + assert (py_in e acc = true) as ->.
        { apply py_in_spec. exists y. rewrite <- in_rev in Hy. auto. }
        now apply IH.
      + assert (py_in e acc = false) as ->.
        { destruct (py_in e acc) eqn:E; auto. apply py_in_spec in E as (y & Hy & Ey).
          rewrite Hn in Ey; [discriminate|]. now rewrite <- in_rev. }
        erewrite IH with (kept := kept'); [now rewrite <- app_assoc|assumption|].
        rewrite rev_app_distr. exact Hk'.
  Qed.

  Lemma first_values_In es : forall seen kept, first_values seen es kept -> forall v, In v kept -> In v es.
  Proof. induction 1; simpl; intros v Hv; auto. destruct Hv; auto. Qed.

  Lemma first_values_distinct es : forall seen kept, first_values seen es kept ->
    ForallOrdPairs (fun a c => py_eq c a = false) kept /\ forall v y, In v kept -> In y seen -> py_eq v y = false.
  Proof.
    induction 1 as [|seen x y l kept Hy He Hk [IH1 IH2]|seen x l kept Hn Hk [IH1 IH2]]; simpl.
    - split; [constructor|intros ? ? []].
    - auto.
    - split.
      + constructor; auto. apply Forall_forall. intros v Hv. apply IH2; simpl; auto.
      + intros v z [<-|Hv] Hz; auto. apply IH2; simpl; auto.
  Qed.

  (** the loop over the entities *)
  Lemma all_loop n x body b (w : W) (good : value -> Prop) ents : forall done,
    Forall (fun e => hashable e = true) ents ->
    ForallOrdPairs (fun a c => py_eq c a = false) (done ++ ents) ->
    (forall e, In e ents -> exists r, solve mods n (VList body) (bset x e b) w = (Ok r, w) /\ (good e <-> sres_len r <> 0)) ->
    exists out, foldM (all_step (solver_at mods n) (VVar x) (VList body) b) done ents w = (Ok (done ++ out), w) /\ (Forall good ents -> out = ents) /\ (~ Forall good ents -> length out < length ents) /\ incl out ents /\ length out <= length ents.
  Proof.
    induction ents as [|e ents IH]; intros done Hh Hd Hs.
    - exists []. simpl. rewrite app_nil_r. repeat split; auto; try (intros ? []). intros F. exfalso. apply F. constructor.
    - inversion Hh as [|? ? Hhe Hhs]; subst.
      destruct (Hs e (or_introl eq_refl)) as (r & Hr & Hg).
      assert (Hin : py_in e done = false).
      { destruct (py_in e done) eqn:E; auto. apply py_in_spec in E as (y & Hy & Ey).
        clear -Hd Hy Ey. exfalso. induction done as [|d done IH]; [destruct Hy|].
        simpl in Hd. inversion Hd as [|? ? HF HO]; subst. destruct Hy as [->|Hy]; auto.
        rewrite Forall_forall in HF. rewrite HF in Ey; [discriminate|]. apply in_or_app; right; now left. }
      simpl. unfold all_step at 1. unfold bind. cbn [name_of ret].
      change (sv_solve (solver_at mods n)) with (solve mods n). rewrite Hr.
      destruct (sres_len r) eqn:El.
      + cbn [ret]. destruct (IH done) as (out & Hf & H1 & H2 & H3 & H4); auto.
        { clear -Hd. induction done as [|d done IH]; simpl in *; [now inversion Hd|].
          inversion Hd as [|? ? HF HO]; subst. constructor; auto.
          rewrite Forall_forall in *. intros y Hy. apply HF. apply in_app_or in Hy. apply in_or_app. simpl. tauto. }
        { intros e' He'. apply Hs. now right. }
        exists out. split; [exact Hf|]. repeat split.
        * intros F. inversion F; subst. exfalso. apply Hg; auto.
        * intros _. simpl. lia.
        * intros y Hy. right. auto.
        * simpl. lia.
      + unfold oset_add. rewrite Hhe, Hin. cbn [ret].
        destruct (IH (done ++ [e])) as (out & Hf & H1 & H2 & H3 & H4); auto.
        { now rewrite <- app_assoc. }
        { intros e' He'. apply Hs. now right. }
        exists (e :: out). rewrite Hf, <- app_assoc. split; [reflexivity|]. repeat split.
        * intros F. inversion F; subst. f_equal; auto.
        * intros F. simpl. apply -> Nat.succ_lt_mono. apply H2. intros F'. apply F. constructor; auto. apply Hg. discriminate.
        * intros y [<-|Hy]; simpl; auto.
        * simpl. lia.
  Qed.

  (** distinct data rows all stay *)
  Lemma add_rows_distinct (f : value -> value) l : forall acc,
    (forall e, is_data e = true -> is_data (f e) = true /\ is_list (f e) = true) ->
    (forall e e', f e = f e' -> e = e') ->
    Forall (fun e => is_data e = true) l ->
    Forall (fun e => is_data e = true) acc ->
    ForallOrdPairs (fun a c => py_eq c a = false) (acc ++ l) ->
    fold_left add_row (map f l) (map f acc) = map f (acc ++ l).
  Proof.
    induction l as [|e l IH]; intros acc Hf Hinj Hl Ha Hd; simpl.
    - now rewrite app_nil_r.
    - inversion Hl as [|? ? He Hls]; subst.
      assert (E : add_row (map f acc) (f e) = map f (acc ++ [e])).
      { unfold add_row. destruct (existsb _ (map f acc)) eqn:E.
        - exfalso. apply existsb_exists in E as (y & Hy & Ey). apply in_map_iff in Hy as (a & <- & Hin).
          apply String.eqb_eq in Ey. rewrite Forall_forall in Ha.
          destruct (Hf e He) as [D1 L1], (Hf a (Ha a Hin)) as [D2 L2].
          assert (f a = f e) as F.
          { apply repr_injective; auto. destruct (f a), (f e); try discriminate; exact Ey. }
          apply Hinj in F. subst a.
          clear -Hd Hin. induction acc as [|d acc IH]; [destruct Hin|].
          simpl in Hd. inversion Hd as [|? ? HF HO]; subst. destruct Hin as [->|Hy]; auto.
          rewrite Forall_forall in HF. specialize (HF e). rewrite py_eq_refl in HF.
          discriminate HF. apply in_or_app; right; now left.
        - now rewrite map_app. }
      rewrite E, IH; auto.
      + now rewrite <- app_assoc.
      + apply Forall_app. split; auto.
      + now rewrite <- app_assoc.
  Qed.

  Lemma all_results x range body ents b (w : W) :
    forall acc,
    foldM (fun results v =>
             bind (match_args v b 0 [VVar x; VList range; VList body] b false)
               (fun rc => let '(result, conflict) := rc in
                if conflict then ret results else ret (results ++ [result])))
          acc (map (fun e => VList [e; VNone; VNone]) ents) w
    = (Ok (acc ++ map (fun e => set_unbound b x e b) ents), w).
  Proof.
    induction ents as [|e ents IH]; intros acc; cbn [foldM map]; [now rewrite app_nil_r|].
    erewrite bind_ok_intro.
    2:{ erewrite bind_ok_intro with (a := (set_unbound b x e b, false)) (w1 := w).
        - cbv beta iota. reflexivity.
        - unfold set_unbound. destruct (bget x b) eqn:Ex.
          + erewrite match_args_bound by eassumption. simpl. reflexivity.
          + rewrite match_args_unbound by assumption. unfold bind. cbn [subscript nth_error ret].
            rewrite Ex. reflexivity. }
    cbv beta iota. rewrite IH, <- app_assoc. reflexivity.
  Qed.

  Lemma solve_all n x range body b (w : W) rs es ents (good : value -> Prop) : only_core mods w "all" ->
    solve mods n (VList range) b w = (Ok (SList rs), w) ->
    Forall2 (fun r e => bget x r = Some e) rs es ->
    Forall (fun e => hashable e = true /\ is_data e = true) es ->
    first_values [] es ents ->
    (forall e, In e ents -> exists r, solve mods n (VList body) (bset x e b) w = (Ok r, w) /\
       (good e <-> sres_len r <> 0)) ->
    exists l, solve mods (S n) (VList [VTuple [VStr "all"; VVar x; VList range; VList body]]) b w = (Ok (SList l), w) /\
      (Forall good ents -> l = map (fun e => set_unbound b x e b) ents) /\
      (~ Forall good ents -> l = []).
  Proof.
    intros H Hr He Hes Hk Hs.
    assert (Hh : Forall (fun e => hashable e = true) es) by (eapply Forall_impl; [|exact Hes]; simpl; tauto).
    assert (Hen : Forall (fun e => hashable e = true /\ is_data e = true) ents).
    { rewrite Forall_forall in *. intros e Hin. apply Hes. eapply first_values_In; eauto. }
    assert (Hd : ForallOrdPairs (fun a c => py_eq c a = false) ents) by (eapply first_values_distinct; eauto).
    destruct (all_loop n x body b w good ents []) as (out & Hf & H1 & H2 & H3 & H4); auto.
    { eapply Forall_impl; [|exact Hen]; simpl; tauto. }
    core (@q_all W). unfold q_all, item. unfold bind at 1. 
    cbn [c_args c_binding nth_error ret db_values map db_value].
    unfold bind. cbn [ret]. change (sv_solve (solver_at mods n)) with (solve mods n). rewrite Hr.
    cbn [sres_items ret]. rewrite (all_entities x rs es [] w He). cbn [app].
    rewrite (all_distinct es [] ents w Hh Hk). cbn [app]. rewrite Hf. cbn [app].
    destruct (Nat.eqb_spec (length out) (length ents)) as [El|El].
    - assert (D : Forall good ents \/ ~ Forall good ents).
      { clear -Hs. induction ents as [|e ents IH]; [left; constructor|].
        destruct IH as [IH|IH]; [intros; apply Hs; now right| |].
        - destruct (Hs e (or_introl eq_refl)) as (r & _ & Hg). destruct (sres_len r) eqn:E.
          + right. intros F. inversion F; subst. apply Hg; auto.
          + left. constructor; auto. apply Hg. discriminate.
        - right. intros F. apply IH. now inversion F. }
      destruct D as [D|D]; [|specialize (H2 D); lia].
      rewrite (H1 D). exists (map (fun e => set_unbound b x e b) ents).
      split; [|split; [auto|contradiction]].
      unfold rows, ret. rewrite map_map. unfold finish.
      assert (E : fold_left add_row (map (fun e => VList [e; VNone; VNone]) ents) [] = map (fun e => VList [e; VNone; VNone]) ents).
      { apply (add_rows_distinct (fun e => VList [e; VNone; VNone]) ents []); auto.
        - intros e De. simpl. rewrite De. auto.
        - now intros e e' [= ->].
        - eapply Forall_impl; [|exact Hen]; simpl; tauto. }
      rewrite E.
      assert (C : check_first_row (map (fun e => VList [e; VNone; VNone]) ents) [VVar x; VList range; VList body] w = (Ok tt, w)).
      { destruct ents; reflexivity. }
      erewrite bind_ok_intro by exact C. cbv beta.
      erewrite bind_ok_intro by (exact (all_results x range body ents b w [])). reflexivity.
    - exists []. split; [reflexivity|]. split; auto. intros D. rewrite (H1 D) in El. congruence.
  Qed.
End Core3.
