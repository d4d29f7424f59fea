(** * Proofs about the blocks of a pipeline *)

From Coq Require Import String List Bool Arith Lia.
From Verif Require Import Py Effects EffectsFacts Pipeline PipelineSpec.
Import ListNotations.
Local Open Scope string_scope.
Local Open Scope list_scope.

Section Proofs.
  Context {W P : Type}.
  Notation block := (@block W P).
  Notation state := (@st W P).

  Lemma dget_dput {A} k k' (a : A) d : dget k (dput k' a d) = if Nat.eqb k k' then Some a else dget k d.
  Proof.
    induction d as [|[j b] d IH]; simpl.
    - destruct (Nat.eqb k k'); reflexivity.
    - destruct (Nat.eqb_spec k' j) as [->|H]; simpl.
      + destruct (Nat.eqb k j); reflexivity.
      + rewrite IH. destruct (Nat.eqb_spec k j) as [->|]; auto.
        destruct (Nat.eqb_spec j k'); congruence.
  Qed.

  Lemma current_set k k' (x : P) r : get_current k (set_current k' x r) = if Nat.eqb k k' then Some x else get_current k r.
  Proof. apply dget_dput. Qed.
  Lemma alternatives_set k k' (l : list P) r :
    get_alternatives k (set_alternatives k' l r) = if Nat.eqb k k' then l else get_alternatives k r.
  Proof. unfold get_alternatives, set_alternatives; simpl. rewrite dget_dput. destruct (Nat.eqb k k'); reflexivity. Qed.

  (** what code that only touches the processors in [ks] leaves alone *)
  Definition frame (ks : list nat) (r r' : request P) : Prop :=
    rq_text r' = rq_text r /\
    forall k, ~ In k ks -> get_current k r' = get_current k r /\ get_alternatives k r' = get_alternatives k r.

  Lemma frame_refl ks r : frame ks r r.
  Proof. split; auto. Qed.
  Lemma frame_trans ks a b c : frame ks a b -> frame ks b c -> frame ks a c.
  Proof.
    intros [T H] [T' H']; split; [congruence|]. intros k Hk.
    destruct (H k Hk), (H' k Hk). split; congruence.
  Qed.
  Lemma frame_incl ks ks' a b : incl ks ks' -> frame ks a b -> frame ks' a b.
  Proof. intros I [T H]; split; auto. Qed.
  Lemma frame_set_current k x r : frame [k] r (set_current k x r).
  Proof.
    split; auto. intros k' Hk. rewrite current_set.
    destruct (Nat.eqb_spec k' k) as [->|]; [exfalso; apply Hk; simpl; auto|]. auto.
  Qed.
  Lemma frame_set_alternatives k l r : frame [k] r (set_alternatives k l r).
  Proof.
    split; auto. intros k' Hk. rewrite alternatives_set.
    destruct (Nat.eqb_spec k' k) as [->|]; [exfalso; apply Hk; simpl; auto|]. auto.
  Qed.

  Definition frames (ks : list nat) (m : M state bresult) : Prop :=
    forall s, frame ks (snd s) (snd (snd (m s))).

  Lemma modify_run {A} f (m : M state A) w r :
    bind (modify P f) (fun _ => m) (w, r) = m (w, f r).
  Proof. reflexivity. Qed.

  Lemma find_one_frames ks next k l : frames ks next -> In k ks -> forall e, frames ks (find_one P next k l e).
  Proof.
    intros Hn Hk. induction l as [|x l IH]; intros e [w r]; simpl.
    - apply frame_refl.
    - rewrite modify_run. unfold bind.
      pose proof (Hn (w, set_current k x r)) as F. simpl in F.
      assert (F0 : frame ks r (set_current k x r)).
      { eapply frame_incl; [|apply frame_set_current]. intros a [->|[]]; auto. }
      destruct (next (w, set_current k x r)) as [[b|e'|] s1]; simpl in *; try (eapply frame_trans; eassumption).
      destruct (is_success b); simpl; [eapply frame_trans; eassumption|].
      eapply frame_trans; [exact F0|]. eapply frame_trans; [exact F|]. apply IH.
  Qed.

  Lemma find_all_frames ks next k l : frames ks next -> In k ks -> forall ok e, frames ks (find_all P next k l ok e).
  Proof.
    intros Hn Hk. induction l as [|x l IH]; intros ok e [w r]; simpl.
    - apply frame_refl.
    - rewrite modify_run. unfold bind.
      pose proof (Hn (w, set_current k x r)) as F. simpl in F.
      assert (F0 : frame ks r (set_current k x r)).
      { eapply frame_incl; [|apply frame_set_current]. intros a [->|[]]; auto. }
      destruct (next (w, set_current k x r)) as [[b|e'|] s1]; simpl in *; try (eapply frame_trans; eassumption).
      eapply frame_trans; [exact F0|]. eapply frame_trans; [exact F|]. apply IH.
  Qed.

  Lemma try_first_frames ks next k l : frames ks next -> In k ks -> frames ks (try_first P next k l).
  Proof.
    intros Hn Hk [w r]. destruct l as [|x l]; simpl; [apply frame_refl|].
    rewrite modify_run. unfold bind.
    pose proof (Hn (w, set_current k x r)) as F. simpl in F.
    assert (F0 : frame ks r (set_current k x r)).
    { eapply frame_incl; [|apply frame_set_current]. intros a [->|[]]; auto. }
    destruct (next (w, set_current k x r)) as [[b|e'|] s1]; simpl in *; eapply frame_trans; eassumption.
  Qed.

  (** the first step of a block *)
  Definition remember (b : block) (l : list P) (r : request P) : request P :=
    let k := p_id (b_proc b) in
    match b_kind b with
    | FindAll => set_alternatives k (get_alternatives k r ++ l) r
    | _ => set_alternatives k l r
    end.
  Definition loop (next : M state bresult) (b : block) (l : list P) : M state bresult :=
    let k := p_id (b_proc b) in
    match b_kind b with
    | FindOne => find_one P next k l success
    | FindAll => find_all P next k l false success
    | TryFirst => try_first P next k l
    end.

  Lemma process_block_run next b w r :
    process_block P next b (w, r) =
    match p_process (b_proc b) r w with
    | (Ok res, w1) =>
        if String.eqb (pr_error res) "" then loop next b (pr_products res) (w1, remember b (pr_products res) r)
        else (Ok (mkBResult (pr_error res) (pr_args res)), (w1, r))
    | (Exn e, w1) => (Exn e, (w1, r))
    | (OutOfFuel, w1) => (OutOfFuel, (w1, r))
    end.
  Proof.
    unfold process_block, exec_process. unfold bind at 1. simpl.
    destruct (p_process (b_proc b) r w) as [[res|e|] w1]; auto.
    destruct (String.eqb (pr_error res) ""); auto.
    unfold loop, remember. destruct (b_kind b); reflexivity.
  Qed.

  Lemma remember_frame b l r : frame [p_id (b_proc b)] r (remember b l r).
  Proof. unfold remember. destruct (b_kind b); apply frame_set_alternatives. Qed.
  Lemma remember_currents b l r ks : currents ks (remember b l r) = currents ks r.
  Proof. unfold remember. destruct (b_kind b); reflexivity. Qed.
  Lemma remember_text b l r : rq_text (remember b l r) = rq_text r.
  Proof. unfold remember. destruct (b_kind b); reflexivity. Qed.

  Lemma loop_frames ks next b l : frames ks next -> In (p_id (b_proc b)) ks -> frames ks (loop next b l).
  Proof.
    intros. unfold loop. destruct (b_kind b); [apply find_one_frames|apply find_all_frames|apply try_first_frames]; auto.
  Qed.

  Lemma process_frames bs : frames (ids bs) (process_blocks P bs).
  Proof.
    induction bs as [|b bs IH]; intros [w r]; [apply frame_refl|].
    change (process_blocks P (b :: bs)) with (process_block P (process_blocks P bs) b).
    rewrite process_block_run.
    destruct (p_process (b_proc b) r w) as [[res|e|] w1]; try apply frame_refl.
    destruct (String.eqb (pr_error res) ""); [|apply frame_refl].
    eapply frame_trans.
    - eapply frame_incl; [|apply (remember_frame b (pr_products res) r)]. intros a [<-|[]]. left; reflexivity.
    - apply (loop_frames (ids (b :: bs)) (process_blocks P bs) b (pr_products res)); [|left; reflexivity].
      intros s. eapply frame_incl; [|apply IH]. intros a Ha; right; exact Ha.
  Qed.

  (** ** FindOne on pure processors *)
  Lemma currents_app ks ks' (r : request P) : currents (ks ++ ks') r = currents ks r ++ currents ks' r.
  Proof. apply map_app. Qed.
  Lemma currents_frame ks ks' (r r' : request P) :
    frame ks r r' -> (forall k, In k ks' -> ~ In k ks) -> currents ks' r' = currents ks' r.
  Proof. intros [_ F] H. apply map_ext_in. intros k Hk. apply F; auto. Qed.

  Lemma find_one_pure (bs : list block) fs before (can : string -> list P -> Prop) :
    (forall c w r, can (rq_text r) c -> currents before r = map Some c ->
       exists res r', process_blocks P bs (w, r) = (Ok res, (w, r')) /\
         ((is_success res = true /\ exists ch, first_survivor (rq_text r) fs c ch /\ currents (ids bs) r' = map Some ch) \/
          (is_success res = false /\ forall ch, ~ survives (rq_text r) fs c ch))) ->
    forall k l before' c w r e,
      before = before' ++ [k] -> ~ In k before' ->
      ~ In k (ids bs) -> (forall j, In j before' -> ~ In j (ids bs)) ->
      is_success e = false \/ l <> [] ->
      (forall x, In x l -> can (rq_text r) (c ++ [x])) ->
      currents before' r = map Some c ->
      exists res r', find_one P (process_blocks P bs) k l e (w, r) = (Ok res, (w, r')) /\
        ((is_success res = true /\
          exists x ch l1 l2, l = l1 ++ x :: l2 /\
            (forall y rest, In y l1 -> ~ survives (rq_text r) fs (c ++ [y]) rest) /\
            first_survivor (rq_text r) fs (c ++ [x]) ch /\
            get_current k r' = Some x /\ currents (ids bs) r' = map Some ch) \/
         (is_success res = false /\ forall x ch, In x l -> ~ survives (rq_text r) fs (c ++ [x]) ch)).
  Proof.
    intros Hnext k l before' c w r e -> Hk Hki Hbi.
    revert w r e. induction l as [|x l IH]; intros w r e He Hcan Hc; simpl.
    - exists e, r. split; [reflexivity|]. right. split; [|intros ? ? []]. destruct He; congruence.
    - rewrite modify_run.
      assert (Hc1 : currents (before' ++ [k]) (set_current k x r) = map Some (c ++ [x])).
      { rewrite currents_app, map_app. f_equal.
        - rewrite <- Hc. apply (currents_frame [k]); [apply frame_set_current|].
          intros j Hj [->|[]]. auto.
        - simpl. rewrite current_set, Nat.eqb_refl. reflexivity. }
      destruct (Hnext (c ++ [x]) w (set_current k x r) (Hcan x (or_introl eq_refl)) Hc1) as (res & r1 & E & HR).
      pose proof (process_frames bs (w, set_current k x r)) as F. rewrite E in F. simpl in F.
      assert (T1 : rq_text r1 = rq_text r) by (destruct F as [T _]; rewrite T; reflexivity).
      unfold bind. rewrite E. destruct HR as [(S1 & ch & HF & HC)|(S1 & HN)]; rewrite S1.
      + exists success, r1. split; [reflexivity|]. left. split; [reflexivity|].
        exists x, ch, [], l. split; [reflexivity|]. split; [intros ? ? []|]. split; [exact HF|]. split; [|exact HC].
        destruct F as [_ F]. destruct (F k Hki) as [-> _]. rewrite current_set, Nat.eqb_refl. reflexivity.
      + assert (Hc2 : currents before' r1 = map Some c).
        { rewrite <- Hc.
          transitivity (currents before' (set_current k x r)).
          - apply (currents_frame (ids bs)); auto.
          - apply (currents_frame [k]); [apply frame_set_current|]. intros j Hj [->|[]]. auto. }
        destruct (IH w r1 res (or_introl S1)) as (res' & r' & E' & HR'); [rewrite T1; intros; apply Hcan; right; assumption|exact Hc2|].
        exists res', r'. split; [exact E'|]. rewrite T1 in HR'.
        destruct HR' as [(S' & x' & ch & l1 & l2 & -> & HN' & H1 & H2 & H3)|(S' & HN')].
        * left. split; auto. exists x', ch, (x :: l1), l2. split; [reflexivity|]. split; [|auto].
          intros y rest [<-|Hy]; [apply HN|apply HN'; auto].
        * right. split; auto. intros y ch [<-|Hy]; [apply HN|apply HN'; auto].
  Qed.

  Lemma NoDup_app_not {A} (l l' : list A) : NoDup (l ++ l') -> forall x, In x l -> ~ In x l'.
  Proof.
    induction l as [|a l IH]; simpl; intros H x Hx; [destruct Hx|].
    inversion H; subst. destruct Hx as [<-|Hx]; auto. intros Hi. apply H2. apply in_app_iff; auto.
  Qed.

  Lemma find_one_pipeline (bs : list block) : forall fs before can c w r,
    Forall (fun b => b_kind b = FindOne) bs -> NoDup (before ++ ids bs) ->
    pure_after can before bs fs -> can (rq_text r) c -> Forall productive fs ->
    currents before r = map Some c ->
    exists res r', process_blocks P bs (w, r) = (Ok res, (w, r')) /\
      ((is_success res = true /\ exists ch, first_survivor (rq_text r) fs c ch /\ currents (ids bs) r' = map Some ch) \/
       (is_success res = false /\ forall ch, ~ survives (rq_text r) fs c ch)).
  Proof.
    induction bs as [|b bs IH]; intros fs before can c w r HK HD HP Hcan HF HC.
    - destruct fs; [|destruct HP]. exists success, r. split; [reflexivity|].
      left. split; [reflexivity|]. exists []. simpl. auto.
    - destruct fs as [|f fs]; [destruct HP|]. destruct HP as [HPb HP].
      inversion HK as [|? ? Kb KK]; subst. inversion HF as [|? ? Ff FF]; subst.
      change (process_blocks P (b :: bs)) with (process_block P (process_blocks P bs) b).
      rewrite process_block_run. rewrite (HPb r w c Hcan HC).
      set (k := p_id (b_proc b)) in *.
      assert (HD' : NoDup ((before ++ [k]) ++ ids bs)) by (rewrite <- app_assoc; exact HD).
      assert (Hk : ~ In k before).
      { intros H. apply (NoDup_app_not _ _ HD k H). left; reflexivity. }
      assert (Hki : ~ In k (ids bs)).
      { apply (NoDup_app_not _ _ HD'). apply in_app_iff; right; left; reflexivity. }
      assert (Hbi : forall j, In j before -> ~ In j (ids bs)).
      { intros j Hj. apply (NoDup_app_not _ _ HD'). apply in_app_iff; auto. }
      destruct (String.eqb_spec (pr_error (f (rq_text r) c)) "") as [Ee|Ee].
      + unfold loop. rewrite Kb. set (r0 := remember b _ r).
        assert (T0 : rq_text r0 = rq_text r) by apply remember_text.
        destruct (find_one_pure bs fs (before ++ [k])
          (fun t c' => exists c x, c' = c ++ [x] /\ can t c /\ In x (offered f t c))) with (k := k) (l := pr_products (f (rq_text r) c))
          (before' := before) (c := c) (w := w) (r := r0) (e := success) as (res & r' & E & HR); auto.
        * intros c' w' r1 Hcan' Hc'. eapply IH; eauto.
        * rewrite T0. intros x Hx. exists c, x. unfold offered. rewrite Ee. auto.
        * unfold r0. rewrite remember_currents. exact HC.
        * exists res, r'. split; [exact E|]. rewrite T0 in HR.
          destruct HR as [(S' & x & ch & l1 & l2 & El & HN & H1 & H2 & H3)|(S' & HN)].
          -- left. split; auto. exists (x :: ch). simpl. split; [split; [auto|split; [eauto|auto]]|].
             unfold currents in *. simpl. rewrite H3. fold k. rewrite H2. reflexivity.
          -- right. split; auto. intros [|x ch]; simpl; [auto|]. intros (_ & Hx & Hs). eapply HN; eauto.
      + eexists _, r. split; [reflexivity|]. right. split.
        * unfold is_success. simpl. destruct (String.eqb_spec (pr_error (f (rq_text r) c)) ""); [contradiction|reflexivity].
        * intros [|x ch]; simpl; [auto|]. intros (H & _). contradiction.
  Qed.

  (** ** the loops on arbitrary processors *)
  Lemma success_iff r : is_success r = true <-> succeeded r.
  Proof. unfold is_success, succeeded. apply String.eqb_eq. Qed.
  Lemma failure_iff r : is_success r = false <-> ~ succeeded r.
  Proof. rewrite <- success_iff. destruct (is_success r); split; congruence. Qed.

  (** FindOne returned [res] after trying [l1], and [l1] is all or its last one succeeded *)
  Lemma find_one_tried (next : M state bresult) k l : forall e s res s',
    find_one P next k l e s = (Ok res, s') ->
    (exists l1 x l2 rs r, l = l1 ++ x :: l2 /\ tried next k (l1 ++ [x]) (rs ++ [r]) s s' /\
       Forall (fun r => ~ succeeded r) rs /\ succeeded r /\ res = success) \/
    (exists rs, tried next k l rs s s' /\ Forall (fun r => ~ succeeded r) rs /\ res = last rs e).
  Proof.
    induction l as [|x l IH]; intros e [w q] res s' H; simpl in H.
    - inversion H; subst. right. exists []. repeat split; constructor.
    - rewrite modify_run in H. apply bind_ok in H as (r & s1 & E & H).
      destruct (is_success r) eqn:Er.
      + inversion H; subst. left. exists [], x, l, [], r. simpl.
        split; [reflexivity|]. split; [econstructor; [exact E|constructor]|].
        split; [constructor|]. split; [now apply success_iff|reflexivity].
      + apply IH in H. destruct H as [(l1 & y & l2 & rs & r' & -> & T & F & S1 & ->)|(rs & T & F & ->)].
        * left. exists (x :: l1), y, l2, (r :: rs), r'. simpl.
          split; [reflexivity|]. split; [econstructor; eauto|]. split; [|auto].
          constructor; auto. now apply failure_iff.
        * right. exists (r :: rs). split; [econstructor; eauto|].
          split; [constructor; auto; now apply failure_iff|].
          destruct rs; [reflexivity|]. simpl. destruct rs; [reflexivity|].
          clear. revert b0. induction rs as [|z rs IH]; intros b0; [reflexivity|]. simpl. destruct rs; [reflexivity|]. apply (IH z).
  Qed.

  Lemma find_all_tried (next : M state bresult) k l : forall ok e s res s',
    find_all P next k l ok e s = (Ok res, s') ->
    exists rs, tried next k l rs s s' /\
      (ok = true \/ Exists succeeded rs -> res = success) /\
      (ok = false -> ~ Exists succeeded rs ->
         (is_success e = false -> res = e) /\
         (is_success e = true -> rs <> [] -> first_error rs res)) /\
      (ok = false -> rs = [] -> res = e).
  Proof.
    induction l as [|x l IH]; intros ok e [w q] res s' H; simpl in H.
    - inversion H; subst. exists []. split; [constructor|]. split; [|split].
      + intros [->|HE]; [reflexivity|inversion HE].
      + intros -> _. split; congruence.
      + intros -> _. reflexivity.
    - rewrite modify_run in H. apply bind_ok in H as (r & s1 & E & H).
      apply IH in H as (rs & T & H1 & H2 & H3). exists (r :: rs). split; [econstructor; eauto|].
      split; [|split].
      + intros [->|HE]; [apply H1; left; reflexivity|].
        apply H1. inversion HE; subst; [|auto]. left. apply success_iff in H0. rewrite H0. apply orb_true_r.
      + intros -> HN. assert (Er : is_success r = false).
        { apply failure_iff. intros Hs. apply HN. now constructor. }
        assert (HN' : ~ Exists succeeded rs) by (intros Hs; apply HN; now constructor).
        rewrite Er in *. simpl in *. destruct (H2 eq_refl HN') as [G1 G2].
        split; intros Ee; rewrite Ee in *.
        * auto.
        * intros _. rewrite (G1 Er). exists [], rs. split; [reflexivity|]. split; [now apply failure_iff|constructor].
      + discriminate.
  Qed.

  Lemma tried_current (next : M state bresult) k l rs s s' : (forall s o s', next s = (o, s') -> get_current k (snd s') = get_current k (snd s)) ->
    tried next k l rs s s' -> forall x l', l = l' ++ [x] -> get_current k (snd s') = Some x.
  Proof.
    intros Hn T. induction T as [s|x l r rs w q s1 s' E T IH]; intros y l' El.
    - destruct l'; discriminate.
    - destruct l' as [|z l']; simpl in El; inversion El; subst.
      + inversion T; subst. rewrite (Hn _ _ _ E). simpl. rewrite current_set, Nat.eqb_refl. reflexivity.
      + eapply IH. reflexivity.
  Qed.

  (** ** FindAll on pure processors *)
  Definition alternatives_after (t : string) (fs : list pure_fun) (c : list P) (bs : list block) (r r' : request P) : Prop :=
    forall i b f, nth_error bs i = Some b -> nth_error fs i = Some f ->
      get_alternatives (p_id (b_proc b)) r' =
      get_alternatives (p_id (b_proc b)) r ++ flat_map (offered f t) (choices t (firstn i fs) c).

  Lemma find_all_pure (bs : list block) fs before (can : string -> list P -> Prop) :
    (forall c w r, can (rq_text r) c -> currents before r = map Some c ->
       exists res r', process_blocks P bs (w, r) = (Ok res, (w, r')) /\
         alternatives_after (rq_text r) fs c bs r r') ->
    forall k l before' c w r ok e,
      before = before' ++ [k] -> ~ In k before' ->
      ~ In k (ids bs) -> (forall j, In j before' -> ~ In j (ids bs)) ->
      (forall x, In x l -> can (rq_text r) (c ++ [x])) ->
      currents before' r = map Some c ->
      exists res r', find_all P (process_blocks P bs) k l ok e (w, r) = (Ok res, (w, r')) /\
        forall i b f, nth_error bs i = Some b -> nth_error fs i = Some f ->
          get_alternatives (p_id (b_proc b)) r' =
          get_alternatives (p_id (b_proc b)) r ++
          flat_map (offered f (rq_text r)) (flat_map (fun x => choices (rq_text r) (firstn i fs) (c ++ [x])) l).
  Proof.
    intros Hnext k l before' c w r ok e -> Hk Hki Hbi.
    revert w r ok e. induction l as [|x l IH]; intros w r ok e Hcan Hc; simpl.
    - eexists _, r. split; [reflexivity|]. intros. now rewrite app_nil_r.
    - rewrite modify_run.
      assert (Hc1 : currents (before' ++ [k]) (set_current k x r) = map Some (c ++ [x])).
      { rewrite currents_app, map_app. f_equal.
        - rewrite <- Hc. apply (currents_frame [k]); [apply frame_set_current|].
          intros j Hj [->|[]]. auto.
        - simpl. rewrite current_set, Nat.eqb_refl. reflexivity. }
      destruct (Hnext (c ++ [x]) w (set_current k x r) (Hcan x (or_introl eq_refl)) Hc1) as (res & r1 & E & HR).
      pose proof (process_frames bs (w, set_current k x r)) as F. rewrite E in F. simpl in F.
      assert (T1 : rq_text r1 = rq_text r) by (destruct F as [T _]; rewrite T; reflexivity).
      unfold bind. rewrite E.
      assert (Hc2 : currents before' r1 = map Some c).
      { rewrite <- Hc.
        transitivity (currents before' (set_current k x r)).
        - apply (currents_frame (ids bs)); auto.
        - apply (currents_frame [k]); [apply frame_set_current|]. intros j Hj [->|[]]. auto. }
      edestruct IH with (r := r1) as (res' & r' & E' & HR'); [rewrite T1; intros; apply Hcan; right; assumption|exact Hc2|].
      exists res', r'. split; [exact E'|]. intros i b f Hb Hf.
      rewrite (HR' i b f Hb Hf), (HR i b f Hb Hf), T1.
      rewrite flat_map_app, app_assoc. reflexivity.
  Qed.

  Lemma find_all_pipeline (bs : list block) : forall fs before can c w r,
    Forall (fun b => b_kind b = FindAll) bs -> NoDup (before ++ ids bs) ->
    pure_after can before bs fs -> can (rq_text r) c ->
    currents before r = map Some c ->
    exists res r', process_blocks P bs (w, r) = (Ok res, (w, r')) /\
      alternatives_after (rq_text r) fs c bs r r'.
  Proof.
    induction bs as [|b bs IH]; intros fs before can c w r HK HD HP Hcan HC.
    - exists success, r. split; [reflexivity|]. intros [|i] b f Hb; discriminate.
    - destruct fs as [|f fs]; [destruct HP|]. destruct HP as [HPb HP].
      inversion HK as [|? ? Kb KK]; subst.
      change (process_blocks P (b :: bs)) with (process_block P (process_blocks P bs) b).
      rewrite process_block_run. rewrite (HPb r w c Hcan HC).
      set (k := p_id (b_proc b)) in *.
      assert (HD' : NoDup ((before ++ [k]) ++ ids bs)) by (rewrite <- app_assoc; exact HD).
      assert (Hk : ~ In k before).
      { intros H. apply (NoDup_app_not _ _ HD k H). left; reflexivity. }
      assert (Hki : ~ In k (ids bs)).
      { apply (NoDup_app_not _ _ HD'). apply in_app_iff; right; left; reflexivity. }
      assert (Hbi : forall j, In j before -> ~ In j (ids bs)).
      { intros j Hj. apply (NoDup_app_not _ _ HD'). apply in_app_iff; auto. }
      assert (Hne : forall i b', nth_error bs i = Some b' -> p_id (b_proc b') <> k).
      { intros i b' Hb' Heq. apply Hki. rewrite <- Heq. apply (in_map (fun b => p_id (b_proc b))).
        eapply nth_error_In; eauto. }
      destruct (String.eqb_spec (pr_error (f (rq_text r) c)) "") as [Ee|Ee].
      + unfold loop. rewrite Kb. set (r0 := remember b _ r).
        assert (T0 : rq_text r0 = rq_text r) by apply remember_text.
        destruct (find_all_pure bs fs (before ++ [k])
          (fun t c' => exists c x, c' = c ++ [x] /\ can t c /\ In x (offered f t c))) with (k := k) (l := pr_products (f (rq_text r) c))
          (before' := before) (c := c) (w := w) (r := r0) (ok := false) (e := success) as (res & r' & E & HR); auto.
        * intros c' w' r1 Hcan' Hc'. eapply IH; eauto.
        * rewrite T0. intros x Hx. exists c, x. unfold offered. rewrite Ee. auto.
        * unfold r0. rewrite remember_currents. exact HC.
        * exists res, r'. split; [exact E|]. rewrite T0 in HR.
          assert (A0 : get_alternatives k r0 = get_alternatives k r ++ pr_products (f (rq_text r) c)).
          { unfold r0, remember. rewrite Kb. fold k. rewrite alternatives_set, Nat.eqb_refl. reflexivity. }
          intros [|i] b' f' Hb' Hf'; simpl in Hb', Hf'.
          -- inversion Hb'; inversion Hf'; subst b' f'. fold k. simpl. rewrite app_nil_r.
             unfold offered. rewrite Ee. simpl. rewrite <- A0.
             assert (F : frame (k :: ids bs) (snd (w, r0)) (snd (snd (find_all P (process_blocks P bs) k (pr_products (f (rq_text r) c)) false success (w, r0))))).
             { apply find_all_frames; [|left; reflexivity].
               intros s. eapply frame_incl; [|apply process_frames]. intros a Ha; right; exact Ha. }
             (* the loop does not touch the alternatives of its own processor *)
             clear F. revert E. generalize false as ok, success as e.
             assert (G : forall l ok e s o s', find_all P (process_blocks P bs) k l ok e s = (o, s') ->
                        get_alternatives k (snd s') = get_alternatives k (snd s)).
             { induction l as [|x l IHl]; intros ok e [w0 q] o s' H; simpl in H.
               - inversion H; subst. reflexivity.
               - rewrite modify_run in H. unfold bind in H.
                 pose proof (process_frames bs (w0, set_current k x q)) as F.
                 destruct (process_blocks P bs (w0, set_current k x q)) as [[b1|e1|] s1]; simpl in F;
                   destruct F as [_ F]; destruct (F k Hki) as [_ F2].
                 + apply IHl in H. rewrite H, F2. reflexivity.
                 + inversion H; subst. simpl. rewrite F2. reflexivity.
                 + inversion H; subst. simpl. rewrite F2. reflexivity. }
             intros ok e E. apply G in E. exact E.
          -- rewrite (HR i b' f' Hb' Hf'). unfold r0.
             destruct (remember_frame b (pr_products (f (rq_text r) c)) r) as [_ F].
             destruct (F (p_id (b_proc b'))) as [_ F2].
             { intros [H|[]]. apply (Hne i b' Hb'). symmetry. exact H. }
             rewrite F2. simpl.
             assert (Eo : offered f (rq_text r) c = pr_products (f (rq_text r) c)) by (unfold offered; rewrite Ee; reflexivity).
             rewrite Eo. reflexivity.
      + eexists _, r. split; [reflexivity|].
        intros [|i] b' f' Hb' Hf'; simpl in Hb', Hf'.
        * inversion Hf'; subst. simpl. unfold offered. destruct (String.eqb_spec (pr_error (f' (rq_text r) c)) ""); [contradiction|].
          simpl. now rewrite app_nil_r.
        * assert (Eo : offered f (rq_text r) c = []).
          { unfold offered. destruct (String.eqb_spec (pr_error (f (rq_text r) c)) ""); [contradiction|reflexivity]. }
          simpl. rewrite Eo. simpl. now rewrite app_nil_r.
  Qed.
End Proofs.
