(** * Properties C50-C57: the pipeline of blocks *)

From Coq Require Import ZArith String List Bool Arith Lia.
From Verif Require Import Py Effects EffectsFacts Solver Atoms AtomsFacts CoreModule CoreSpec CoreProofs3
  SimpleDataSource SimpleDataProofs Memory Pipeline PipelineSpec PipelineProofs.
Import ListNotations.
Local Open Scope string_scope.
Local Open Scope list_scope.

(** ** C50 *)

(** A pipeline of FindOne blocks succeeds iff some choice of products
    survives; it then has made the first one in depth-first order. *)
Theorem C50_find_one_commits_to_the_first_survivor :
  forall {W P} (bs : list (@block W P)) fs w r,
    Forall (fun b => b_kind b = FindOne) bs -> NoDup (ids bs) ->
    pure_pipeline bs fs -> Forall productive fs ->
    exists res r', process_blocks P bs (w, r) = (Ok res, (w, r')) /\
      (succeeded res <-> exists ch, survives (rq_text r) fs [] ch) /\
      (succeeded res -> exists ch, first_survivor (rq_text r) fs [] ch /\ currents (ids bs) r' = map Some ch).
Proof.
  intros W P bs fs w r HK HD HP HF.
  destruct (find_one_pipeline bs fs [] (fun _ c => c = []) [] w r HK HD HP eq_refl HF eq_refl) as (res & r' & E & HR).
  exists res, r'. split; [exact E|].
  assert (FS : forall fs c ch, first_survivor (P := P) (rq_text r) fs c ch -> survives (rq_text r) fs c ch).
  { clear. induction fs as [|f fs IH]; intros c [|x ch]; simpl; auto.
    intros (H & (l1 & l2 & E & _) & Hf). split; auto. split; [rewrite E; apply in_app_iff; right; left; reflexivity|auto]. }
  destruct HR as [(S1 & ch & H1 & H2)|(S1 & HN)].
  - apply success_iff in S1. split; [|eauto]. split; eauto.
  - apply failure_iff in S1. split; [|intros; contradiction]. split; [intros; contradiction|].
    intros (ch & Hc). exfalso. eapply HN; eauto.
Qed.
Print Assumptions C50_find_one_commits_to_the_first_survivor.

(** System.enter then returns the output of the last product of that choice. *)
Theorem C50_enter_returns_the_first_survivor :
  forall {W P O} (out : P -> O) (store : list value -> M W unit) (bs : list (@block W P)) fs w r,
    Forall (fun b => b_kind b = FindOne) bs -> NoDup (ids bs) ->
    pure_pipeline bs fs -> Forall productive fs -> bs <> [] ->
    (exists ch, survives (rq_text r) fs [] ch) ->
    exists ch x r', first_survivor (rq_text r) fs [] (ch ++ [x]) /\
      enter P O out store bs (w, r) = (Ok (Some (out x)), (w, r')).
Proof.
  intros W P O out store bs fs w r HK HD HP HF Hne HS.
  destruct (C50_find_one_commits_to_the_first_survivor bs fs w r HK HD HP HF) as (res & r' & E & Hiff & HC).
  apply Hiff in HS. destruct (HC HS) as (ch & H1 & H2).
  destruct (exists_last Hne) as (bs' & b & ->).
  assert (Hl : ch <> []). { intros ->. destruct bs'; discriminate. }
  destruct (exists_last Hl) as (ch' & x & ->).
  exists ch', x, r'. split; [exact H1|].
  unfold enter, last_id. rewrite rev_app_distr. cbn [rev app]. unfold bind. rewrite E.
  apply success_iff in HS. rewrite HS. cbn [get].
  unfold ids in H2. rewrite map_app in H2. unfold currents in H2. rewrite !map_app in H2.
  apply app_inj_tail in H2 as [_ H2]. cbn [snd]. rewrite H2. reflexivity.
Qed.
Print Assumptions C50_enter_returns_the_first_survivor.

(** Without the condition that processors that report no error have a
    product: an empty list of products counts as a success, in every kind of
    block, and [enter] then raises because there is no product. *)
Theorem C50_no_products_counts_as_success_refuted :
  forall {W P O} (out : P -> O) (store : list value -> M W unit) (b : @block W P) bs t w w1 r1,
    let r := mkRequest t [] [] in
    p_process (b_proc b) r w = (Ok (mkPResult [] "" r1), w1) ->
    (exists r', process_blocks P (b :: bs) (w, r) = (Ok success, (w1, r'))) /\
    (exists s', enter P O out store (b :: bs) (w, r) = (Exn AttributeErr, s')).
Proof.
  intros W P O out store b bs t w w1 r1 r Hp.
  assert (E : exists r', process_blocks P (b :: bs) (w, r) = (Ok success, (w1, r')) /\ forall k, get_current k r' = None).
  { change (process_blocks P (b :: bs)) with (process_block P (process_blocks P bs) b).
    rewrite process_block_run, Hp. cbn [pr_error pr_products String.eqb]. unfold loop, remember.
    destruct (b_kind b); simpl; eexists; (split; [reflexivity|]); reflexivity. }
  destruct E as (r' & E & HN). split; [eauto|].
  unfold enter. assert (exists k, last_id P (b :: bs) = Some k) as (k & ->).
  { unfold last_id. destruct (rev (b :: bs)) eqn:Er; [|eauto].
    apply (f_equal (@length _)) in Er. rewrite rev_length in Er. discriminate. }
  exists (w1, r'). unfold bind. rewrite E. cbn. now rewrite HN.
Qed.
Print Assumptions C50_no_products_counts_as_success_refuted.

(** an example: three processors on texts.  The first interpretation [a] is
    rejected by the second processor, [b] is rejected by the third one for
    one of its two products. *)
Definition ex_f1 : @pure_fun string := fun t _ => mkPResult ["a"; "b"; "c"] "" [].
Definition ex_f2 : @pure_fun string := fun t c =>
  match c with
  | ["a"] => mkPResult [] "no_a" [VStr t]
  | [x] => mkPResult [x ++ "1"; x ++ "2"]%string "" []
  | _ => mkPResult [] "odd" []
  end.
Definition ex_f3 : @pure_fun string := fun t c =>
  match c with
  | [_; y] => if String.eqb y "b1" then mkPResult [] "no_b1" [] else mkPResult [y ++ "!"]%string "" []
  | _ => mkPResult [] "odd" []
  end.
Definition ex_proc (k : nat) (before : list nat) (f : @pure_fun string) : @processor unit string :=
  mkProc k (fun r w =>
    let cs := currents before r in
    (Ok (f (rq_text r) (flat_map (fun o => match o with Some x => [x] | None => [] end) cs)), w)).
Definition ex_pipeline (kind : bkind) : list (@block unit string) :=
  [ mkBlock kind (ex_proc 1 [] ex_f1); mkBlock kind (ex_proc 2 [1] ex_f2); mkBlock kind (ex_proc 3 [1; 2] ex_f3) ].
Definition ex_funs : list (@pure_fun string) := [ex_f1; ex_f2; ex_f3].

Lemma ex_pure kind : pure_pipeline (ex_pipeline kind) ex_funs.
Proof.
  assert (G : forall k before f, forall r (w : unit) c, currents before r = map Some c ->
    p_process (ex_proc k before f) r w = (Ok (f (rq_text r) c), w)).
  { intros k before f r w c H. unfold ex_proc; simpl. rewrite H. do 3 f_equal. clear.
    induction c; simpl; congruence. }
  split; [intros r w c _; apply (G 1 [])|]. split; [intros r w c _; apply (G 2 [1])|].
  split; [intros r w c _; apply (G 3 [1; 2])|exact I].
Qed.
Lemma ex_productive : Forall productive ex_funs.
Proof.
  constructor; [|constructor; [|constructor; [|constructor]]]; intros t c; simpl; try discriminate.
  - unfold ex_f2. destruct c as [|x [|y c]]; simpl; try discriminate.
    + destruct x as [|[[] [] [] [] [] [] [] []] [|? ?]]; simpl; discriminate.
    + destruct x as [|[[] [] [] [] [] [] [] []] [|? ?]]; simpl; discriminate.
  - unfold ex_f3. destruct c as [|x [|y [|z c]]]; simpl; try discriminate.
    destruct (String.eqb y "b1"); simpl; discriminate.
Qed.
Example C50_example :
  Forall (fun b => b_kind b = FindOne) (ex_pipeline FindOne) /\ NoDup (ids (ex_pipeline FindOne)) /\
  pure_pipeline (ex_pipeline FindOne) ex_funs /\ Forall productive ex_funs /\
  survives "hi" ex_funs [] ["c"; "c1"; "c1!"] /\
  first_survivor "hi" ex_funs [] ["b"; "b2"; "b2!"] /\
  fst (enter string string (fun x => x) (fun _ => ret tt) (ex_pipeline FindOne) (tt, mkRequest "hi" [] [])) = Ok (Some "b2!").
Proof.
  split; [repeat constructor|].
  split; [repeat constructor; simpl; intuition discriminate|].
  split; [apply ex_pure|]. split; [apply ex_productive|].
  split; [simpl; tauto|]. split; [|reflexivity].
  simpl. split; [reflexivity|]. split.
  - exists ["a"], ["c"]. split; [reflexivity|].
    intros y [|z rest] [<-|[]]; simpl; [tauto|]. intros (H & _). discriminate.
  - split; [reflexivity|]. split; [|split; [reflexivity|split; [|exact I]]].
    + exists ["b1"], []. split; [reflexivity|].
      intros y [|z rest] [<-|[]]; simpl; [tauto|]. intros (H & _). discriminate.
    + exists [], []. split; [reflexivity|]. intros ? ? [].
Qed.

(** ** C51 *)

(** Any processors.  A failing FindOne block has tried the rest of the
    pipeline with each product in turn, all failed, and the error is the one
    of the last product; or the processor itself failed. *)
Theorem C51_find_one_reports_the_last_error :
  forall {W P} (b : @block W P) bs w r res s',
    b_kind b = FindOne ->
    process_blocks P (b :: bs) (w, r) = (Ok res, s') -> ~ succeeded res ->
    exists p w1, p_process (b_proc b) r w = (Ok p, w1) /\
      (pr_error p <> "" /\ res = mkBResult (pr_error p) (pr_args p) /\ s' = (w1, r) \/
       pr_error p = "" /\
       exists rs, tried (process_blocks P bs) (p_id (b_proc b)) (pr_products p) (rs ++ [res])
                    (w1, set_alternatives (p_id (b_proc b)) (pr_products p) r) s' /\
                  Forall (fun x => ~ succeeded x) (rs ++ [res])).
Proof.
  intros W P b bs w r res s' Hk E HN.
  change (process_blocks P (b :: bs)) with (process_block P (process_blocks P bs) b) in E.
  rewrite process_block_run in E.
  destruct (p_process (b_proc b) r w) as [[p|e|] w1]; try discriminate.
  exists p, w1. split; [reflexivity|].
  destruct (String.eqb_spec (pr_error p) "") as [Ee|Ee].
  - right. split; auto. unfold loop, remember in E. rewrite Hk in E.
    apply find_one_tried in E as [(l1 & x & l2 & rs & q & _ & _ & _ & _ & ->)|(rs & T & F & ->)].
    + exfalso. apply HN. reflexivity.
    + destruct rs as [|q rs] using rev_ind; [exfalso; apply HN; reflexivity|].
      clear IHrs. exists rs. rewrite last_last in *. auto.
  - inversion E; subst. left. auto.
Qed.
Print Assumptions C51_find_one_reports_the_last_error.

(** Also a successful FindOne stops at the first product for which the rest
    of the pipeline succeeds; the effects of the earlier ones remain. *)
Theorem C51_find_one_stops_at_the_first_success :
  forall {W P} (b : @block W P) bs w r res s',
    b_kind b = FindOne ->
    process_blocks P (b :: bs) (w, r) = (Ok res, s') -> succeeded res ->
    exists p w1, p_process (b_proc b) r w = (Ok p, w1) /\ pr_error p = "" /\
      (pr_products p = [] \/
       exists l1 x l2 rs q, pr_products p = l1 ++ x :: l2 /\
         tried (process_blocks P bs) (p_id (b_proc b)) (l1 ++ [x]) (rs ++ [q])
           (w1, set_alternatives (p_id (b_proc b)) (pr_products p) r) s' /\
         Forall (fun x => ~ succeeded x) rs /\ succeeded q).
Proof.
  intros W P b bs w r res s' Hk E HN.
  change (process_blocks P (b :: bs)) with (process_block P (process_blocks P bs) b) in E.
  rewrite process_block_run in E.
  destruct (p_process (b_proc b) r w) as [[p|e|] w1]; try discriminate.
  exists p, w1. split; [reflexivity|].
  destruct (String.eqb_spec (pr_error p) "") as [Ee|Ee].
  - split; auto. unfold loop, remember in E. rewrite Hk in E.
    apply find_one_tried in E as [(l1 & x & l2 & rs & q & H1 & H2 & H3 & H4 & ->)|(rs & T & F & ->)].
    + right. exists l1, x, l2, rs, q. auto.
    + destruct rs as [|q rs] using rev_ind.
      * left. inversion T. reflexivity.
      * clear IHrs. rewrite last_last in HN. apply Forall_app in F as [_ F]. inversion F; subst. contradiction.
  - inversion E; subst. contradiction.
Qed.
Print Assumptions C51_find_one_stops_at_the_first_success.

(** two interpretations that fail with different errors: the documentation
    promises the first error *)
Definition ex_fail : list (@block unit string) :=
  [ mkBlock FindOne (ex_proc 1 [] (fun _ _ => mkPResult ["a"; "b"] "" []));
    mkBlock FindOne (ex_proc 2 [1] (fun _ c => mkPResult [] ("no_" ++ String.concat "" c) [])) ].
Theorem C51_documented_first_error_refuted :
  exists (bs : list (@block unit string)) r x y res s',
    tried (process_blocks string (tl bs)) 1 ["a"; "b"] [x; y] (tt, set_alternatives 1 ["a"; "b"] r) s' /\
    process_blocks string bs (tt, r) = (Ok res, s') /\
    br_error x = "no_a" /\ br_error y = "no_b" /\ res = y /\ res <> x.
Proof.
  exists ex_fail, (mkRequest "" [] []). do 2 eexists. exists (mkBResult "no_b" []). eexists.
  split; [econstructor; [reflexivity|econstructor; [reflexivity|constructor]]|].
  split; [reflexivity|]. repeat (split; [reflexivity|]). discriminate.
Qed.
Print Assumptions C51_documented_first_error_refuted.

(** ** C52 *)

(** Any processors.  FindAll runs the rest of the pipeline for every product
    in order; it succeeds iff one of them does or there are none, and reports
    the first error otherwise. *)
Theorem C52_find_all_tries_everything :
  forall {W P} (b : @block W P) bs w r res s',
    b_kind b = FindAll -> ~ In (p_id (b_proc b)) (ids bs) ->
    process_blocks P (b :: bs) (w, r) = (Ok res, s') ->
    exists p w1, p_process (b_proc b) r w = (Ok p, w1) /\
      (pr_error p <> "" /\ res = mkBResult (pr_error p) (pr_args p) /\ s' = (w1, r) \/
       pr_error p = "" /\
       get_alternatives (p_id (b_proc b)) (snd s') = get_alternatives (p_id (b_proc b)) r ++ pr_products p /\
       exists rs, tried (process_blocks P bs) (p_id (b_proc b)) (pr_products p) rs
                    (w1, set_alternatives (p_id (b_proc b)) (get_alternatives (p_id (b_proc b)) r ++ pr_products p) r) s' /\
         (succeeded res <-> Exists succeeded rs \/ pr_products p = []) /\
         (~ succeeded res -> first_error rs res)).
Proof.
  intros W P b bs w r res s' Hk Hni E.
  change (process_blocks P (b :: bs)) with (process_block P (process_blocks P bs) b) in E.
  rewrite process_block_run in E.
  destruct (p_process (b_proc b) r w) as [[p|e|] w1]; try discriminate.
  exists p, w1. split; [reflexivity|].
  destruct (String.eqb_spec (pr_error p) "") as [Ee|Ee].
  - right. split; auto. unfold loop, remember in E. rewrite Hk in E.
    apply find_all_tried in E as (rs & T & H1 & H2 & H3). split.
    + assert (G : forall l rs s s1, tried (process_blocks P bs) (p_id (b_proc b)) l rs s s1 ->
                 get_alternatives (p_id (b_proc b)) (snd s1) = get_alternatives (p_id (b_proc b)) (snd s)).
      { clear - Hni. induction 1 as [|x l q rs w0 q0 s1 s2 En T IH]; auto. rewrite IH.
        pose proof (process_frames bs (w0, set_current (p_id (b_proc b)) x q0)) as [_ F]. rewrite En in F.
        destruct (F _ Hni) as [_ F2]. simpl in F2. rewrite F2. reflexivity. }
      rewrite (G _ _ _ _ T). cbn [snd]. rewrite alternatives_set, Nat.eqb_refl. reflexivity.
    + exists rs. split; [exact T|].
      assert (D : Exists succeeded rs \/ ~ Exists succeeded rs).
      { clear. induction rs as [|x rs IH]; [right; intros H; inversion H|].
        destruct (String.eqb_spec (br_error x) "") as [Ex|Ex]; [left; now constructor|].
        destruct IH; [left; now constructor|]. right. intros H0. inversion H0; subst; auto. }
      assert (L : length rs = length (pr_products p)).
      { clear - T. induction T; simpl; congruence. }
      destruct D as [D|D].
      * rewrite (H1 (or_intror D)). split; [split; [intros _; left; exact D|reflexivity]|].
        intros H. exfalso. apply H. reflexivity.
      * destruct (H2 eq_refl D) as [_ H2']. destruct rs as [|q rs].
        -- rewrite (H3 eq_refl eq_refl). destruct (pr_products p); [|discriminate].
           split; [split; [intros _; right; reflexivity|reflexivity]|].
           intros H. exfalso. apply H. reflexivity.
        -- assert (FE : first_error (q :: rs) res) by (apply H2'; [reflexivity|discriminate]).
           split; [|auto]. destruct FE as (l1 & l2 & _ & Hn & _).
           split; [intros H; contradiction|]. intros [H|H]; [contradiction|].
           destruct (pr_products p); discriminate.
  - inversion E; subst. left. auto.
Qed.
Print Assumptions C52_find_all_tries_everything.

(** In a pipeline of FindAll blocks each processor is run once for each
    choice of earlier products; the alternatives that are recorded for it
    are all of its products, in that order. *)
Theorem C52_alternatives_are_all_products_in_order :
  forall {W P} (bs : list (@block W P)) fs w r,
    Forall (fun b => b_kind b = FindAll) bs -> NoDup (ids bs) -> pure_pipeline bs fs ->
    exists res r', process_blocks P bs (w, r) = (Ok res, (w, r')) /\
      forall i b f, nth_error bs i = Some b -> nth_error fs i = Some f ->
        get_alternatives (p_id (b_proc b)) r' =
        get_alternatives (p_id (b_proc b)) r ++
        flat_map (offered f (rq_text r)) (choices (rq_text r) (firstn i fs) []).
Proof. intros W P bs fs w r HK HD HP. exact (find_all_pipeline bs fs [] (fun _ c => c = []) [] w r HK HD HP eq_refl eq_refl). Qed.
Print Assumptions C52_alternatives_are_all_products_in_order.

Example C52_example :
  let s := process_blocks string (ex_pipeline FindAll) (tt, mkRequest "hi" [] []) in
  fst s = Ok success /\
  get_alternatives 1 (snd (snd s)) = ["a"; "b"; "c"] /\
  get_alternatives 2 (snd (snd s)) = ["b1"; "b2"; "c1"; "c2"] /\
  get_alternatives 3 (snd (snd s)) = ["b2!"; "c1!"; "c2!"] /\
  flat_map (offered ex_f3 "hi") (choices "hi" (firstn 2 ex_funs) []) = ["b2!"; "c1!"; "c2!"].
Proof. vm_compute. repeat split. Qed.

(** ** C53 *)

(** The current product after a FindAll block is the last one. *)
Theorem C53_find_all_leaves_the_last_product :
  forall {W P} (b : @block W P) bs w r res s' p w1 l x,
    b_kind b = FindAll -> ~ In (p_id (b_proc b)) (ids bs) ->
    p_process (b_proc b) r w = (Ok p, w1) -> pr_error p = "" -> pr_products p = l ++ [x] ->
    process_blocks P (b :: bs) (w, r) = (Ok res, s') ->
    get_current (p_id (b_proc b)) (snd s') = Some x.
Proof.
  intros W P b bs w r res s' p w1 l x Hk Hni Hp He Hl E.
  destruct (C52_find_all_tries_everything b bs w r res s' Hk Hni E) as (p' & w1' & Hp' & H).
  rewrite Hp in Hp'. inversion Hp'; subst p' w1'. destruct H as [(H & _)|(_ & _ & rs & T & _)]; [contradiction|].
  eapply tried_current; [|exact T|exact Hl].
  intros s o s1 En. pose proof (process_frames bs s) as [_ F]. rewrite En in F. apply F. exact Hni.
Qed.
Print Assumptions C53_find_all_leaves_the_last_product.

(** So when the last interpretation fails, it is still the current one, and
    the later processors' current products belong to another
    interpretation. *)
Definition ex_mixed : list (@block unit string) :=
  [ mkBlock FindAll (ex_proc 1 [] (fun _ _ => mkPResult ["a"; "b"] "" []));
    mkBlock FindOne (ex_proc 2 [1] (fun _ c => match c with ["a"] => mkPResult ["a1"] "" [] | _ => mkPResult [] "bad" [] end)) ].
Theorem C53_current_product_may_be_a_failed_one_refuted :
  exists (bs : list (@block unit string)) r s',
    process_blocks string bs (tt, r) = (Ok success, s') /\
    get_current 1 (snd s') = Some "b" /\ get_current 2 (snd s') = Some "a1" /\
    ~ survives (rq_text r) [fun _ _ => mkPResult ["a"; "b"] "" [];
        fun _ c => match c with ["a"] => mkPResult ["a1"] "" [] | _ => mkPResult [] "bad" [] end] [] ["b"; "a1"] /\
    fst (enter string string (fun x => x) (fun _ => ret tt) bs (tt, r)) = Ok (Some "a1").
Proof.
  exists ex_mixed, (mkRequest "" [] []). eexists. split; [reflexivity|].
  split; [reflexivity|]. split; [reflexivity|]. split; [|reflexivity].
  simpl. intros (_ & _ & H & _). discriminate.
Qed.
Print Assumptions C53_current_product_may_be_a_failed_one_refuted.

(** ** C54 *)

(** Any processors.  TryFirst gives the outcome of the rest of the pipeline
    with the first product, whatever the others are. *)
Theorem C54_try_first_tries_only_the_first :
  forall {W P} (b : @block W P) bs w r p w1,
    b_kind b = TryFirst ->
    p_process (b_proc b) r w = (Ok p, w1) ->
    process_blocks P (b :: bs) (w, r) =
      (if string_dec (pr_error p) "" then
         match pr_products p with
         | [] => (Ok (mkBResult "" []), (w1, set_alternatives (p_id (b_proc b)) [] r))
         | x :: l => process_blocks P bs (w1, set_current (p_id (b_proc b)) x
                                               (set_alternatives (p_id (b_proc b)) (x :: l) r))
         end
       else (Ok (mkBResult (pr_error p) (pr_args p)), (w1, r))).
Proof.
  intros W P b bs w r p w1 Hk Hp.
  change (process_blocks P (b :: bs)) with (process_block P (process_blocks P bs) b).
  rewrite process_block_run, Hp.
  destruct (string_dec (pr_error p) "") as [E|E]; destruct (String.eqb_spec (pr_error p) ""); try contradiction; auto.
  unfold loop, remember. rewrite Hk. destruct (pr_products p) as [|x l]; [reflexivity|].
  simpl. rewrite modify_run. unfold bind, ret.
  destruct (process_blocks P bs _) as [[]]; reflexivity.
Qed.
Print Assumptions C54_try_first_tries_only_the_first.

(** The products after the first make no difference for the result, the
    world and the current products. *)
Theorem C54_other_products_make_no_difference :
  forall {W P} k (x : P) l l' (proc proc' : @processor W P) w r res w1,
    p_id proc = k -> p_id proc' = k ->
    p_process proc r w = (Ok (mkPResult (x :: l) "" res), w1) ->
    p_process proc' r w = (Ok (mkPResult (x :: l') "" res), w1) ->
    process_blocks P [mkBlock TryFirst proc] (w, r) =
      (Ok success, (w1, set_current k x (set_alternatives k (x :: l) r))) /\
    process_blocks P [mkBlock TryFirst proc'] (w, r) =
      (Ok success, (w1, set_current k x (set_alternatives k (x :: l') r))).
Proof.
  intros W P k x l l' proc proc' w r res w1 Hk Hk' H H'.
  rewrite (C54_try_first_tries_only_the_first (mkBlock TryFirst proc) [] w r _ w1 eq_refl H).
  rewrite (C54_try_first_tries_only_the_first (mkBlock TryFirst proc') [] w r _ w1 eq_refl H').
  simpl. rewrite Hk, Hk'. auto.
Qed.
Print Assumptions C54_other_products_make_no_difference.

(** the first product fails, the second one would have succeeded *)
Example C54_example :
  fst (process_blocks string (mkBlock TryFirst (ex_proc 1 [] ex_f1) :: tl (ex_pipeline FindOne)) (tt, mkRequest "hi" [] []))
    = Ok (mkBResult "no_a" [VStr "hi"]) /\
  fst (process_blocks string (ex_pipeline FindOne) (tt, mkRequest "hi" [] [])) = Ok success.
Proof. split; reflexivity. Qed.

(** ** C55 *)
Section Reporting.
  Context {W P O : Type}.
  Variable out : P -> O.
  Variable L : lens W sds_store.
  Variables ms1 ms2 : list (modul W).
  Definition reporting_mods : list (modul W) := core_module :: ms1 ++ output_buffer L :: ms2.

  (** no other module has [store] or relations for the output *)
  Definition sole_buffer : Prop :=
    forall m, In m (ms1 ++ ms2) -> forall w, m w "store" = None /\ forall p, m w ("output_" ++ p)%string = None.

  Lemma only_store w : sole_buffer -> only_core reporting_mods w "store".
  Proof.
    intros H. exists (ms1 ++ output_buffer L :: ms2). split; [reflexivity|].
    intros m Hm. apply in_app_iff in Hm as [Hm|[<-|Hm]]; [|reflexivity|];
      apply H; apply in_app_iff; auto.
  Qed.

  Lemma core_no_output w p : @core_module W w ("output_" ++ p)%string = None.
  Proof. reflexivity. Qed.

  Lemma none_in ms w p : (forall m, In m ms -> m w p = None) -> @find_relations_in W ms w p = [].
  Proof. induction ms; simpl; auto. intros H. rewrite (H a) by auto. auto. Qed.
  Lemma find_in_app ms ms' w p : @find_relations_in W (ms ++ ms') w p = find_relations_in ms w p ++ find_relations_in ms' w p.
  Proof. induction ms as [|m ms IH]; simpl; auto. destruct (m w p); simpl; rewrite IH; auto. Qed.

  Lemma find_output w p : sole_buffer ->
    find_relations reporting_mods w ("output_" ++ p)%string =
    match output_buffer L w ("output_" ++ p)%string with Some r => [r] | None => [] end.
  Proof.
    intros H. unfold find_relations, reporting_mods.
    change (core_module :: ms1 ++ output_buffer L :: ms2) with ((core_module :: ms1) ++ output_buffer L :: ms2).
    rewrite find_in_app. rewrite none_in.
    - cbn [app find_relations_in]. rewrite (none_in ms2).
      + destruct (output_buffer L w _); reflexivity.
      + intros m Hm. apply (H m). apply in_app_iff; auto.
    - intros m [<-|Hm]; [apply core_no_output|]. apply (H m). apply in_app_iff; auto.
  Qed.

  Lemma buffer_get w e cols : In (e, cols) buffer_columns ->
    output_buffer L w e = Some (memory_relation (buffer_select L) (buffer_insert L) e cols).
  Proof. simpl. intros H. repeat (destruct H as [[= <- <-]|H]; [reflexivity|]). destruct H. Qed.

  Lemma write_output n w p cols args : sole_buffer -> In ("output_" ++ p, cols)%string buffer_columns ->
    write_atom reporting_mods (S n) (VTuple (VStr ("output_" ++ p)%string :: args)) w =
    (Ok tt, lset L (sds_insert ("output_" ++ p)%string cols args (lget L w)) w).
  Proof.
    intros H Hc. unfold write_atom. cbn [solver_at sv_write]. unfold write_F, atom_parts.
    unfold bind at 1. cbn [ret]. unfold bind at 1. cbn [get].
    rewrite (find_output w p H), (buffer_get _ _ _ Hc). reflexivity.
  Qed.

  Lemma output_performs n p c a w0 : sole_buffer -> In ("output_" ++ p, c)%string buffer_columns ->
    performs (write_actions reporting_mods w0 (solver_at reporting_mods n) ("output_" ++ p)%string a) w0
      (lset L (sds_insert ("output_" ++ p)%string c a (lget L w0)) w0) /\
    exists m, In m reporting_mods /\ m w0 ("output_" ++ p)%string <> None.
  Proof.
        intros H Hpc. split.
          - assert (WA : forall ms, (forall m, In m ms -> m w0 ("output_" ++ p)%string = None) ->
              write_actions ms w0 (solver_at reporting_mods n) ("output_" ++ p)%string a = []).
            { induction ms as [|m ms IH]; intros Hm; [reflexivity|].
              cbn [write_actions]. rewrite (Hm m) by (left; reflexivity).
              apply IH. intros; apply Hm; right; auto. }
            assert (WApp : forall ms ms', write_actions (ms ++ ms') w0 (solver_at reporting_mods n) ("output_" ++ p)%string a
              = write_actions ms w0 (solver_at reporting_mods n) ("output_" ++ p)%string a
                ++ write_actions ms' w0 (solver_at reporting_mods n) ("output_" ++ p)%string a).
            { induction ms as [|m ms IH]; intros ms'; [reflexivity|]. cbn [app write_actions].
              destruct (m w0 ("output_" ++ p)%string) as [rel|]; [|apply IH].
              destruct (r_write rel); [cbn [app]; f_equal|]; apply IH. }
            unfold reporting_mods at 1.
            change (core_module :: ms1 ++ output_buffer L :: ms2) with ((core_module :: ms1) ++ [output_buffer L] ++ ms2).
            rewrite !WApp, (WA (core_module :: ms1)), (WA ms2).
            + cbn [app write_actions]. rewrite (buffer_get _ _ _ Hpc). cbn [memory_relation r_write app].
              econstructor; [reflexivity|constructor].
            + intros m Hm. apply (H m). apply in_app_iff; auto.
            + intros m [<-|Hm]; [apply core_no_output|]. apply (H m). apply in_app_iff; auto.
          - exists (output_buffer L). split; [right; apply in_app_iff; right; left; reflexivity|].
            rewrite (buffer_get _ _ _ Hpc). discriminate.
  Qed.

  (** a request that ends in an error for which the buffer has a relation:
      both atoms are stored *)
  Lemma report_known n bs (w w1 : W) r r1 e args cols : sole_buffer -> bs <> [] ->
    process_blocks P bs (w, r) = (Ok (mkBResult e args), (w1, r1)) -> e <> "" ->
    In ("output_" ++ e, cols)%string buffer_columns ->
    lens_ok L ->
    (forall a, In a args -> atom_variables a = []) ->
    enter P O out (solver_store reporting_mods (S (S n))) bs (w, r) =
    (Ok None, (lset L (sds_insert ("output_" ++ e)%string cols args
                 (sds_insert "output_type" ["type"] [VStr e] (lget L w1))) w1, r1)).
  Proof.
    intros H Hne E He Hc HL Ha. unfold enter.
    assert (exists k, last_id P bs = Some k) as (k & ->).
    { unfold last_id. destruct (rev bs) eqn:Er; [|eauto].
      apply (f_equal (@rev _)) in Er. rewrite rev_involutive in Er. contradiction. }
    unfold bind at 1. rewrite E. unfold is_success. cbn [br_error].
    destruct (String.eqb_spec e ""); [contradiction|].
    unfold bind. cbn [fst snd]. unfold solver_store, error_atoms. cbn [br_error br_args].
    set (w2 := lset L _ w1).
    assert (Es : solve reporting_mods (S (S n)) (VList [VTuple [VStr "store";
        VList [VTuple [VStr "output_type"; VStr e]; VTuple (VStr ("output_" ++ e)%string :: args)]]]) [] w1
      = (Ok (SList [[]]), w2)).
    { apply (solve_store reporting_mods n _ [VTuple [VStr "output_type"; VStr e]; VTuple (VStr ("output_" ++ e)%string :: args)]).
      - now apply only_store.
      - assert (S1 : forall v, atom_variables v = [] -> substituted [] v v).
        { intros v Hv. rewrite <- (bind_variables_no_variables v []) at 2; [apply bind_substituted|].
          rewrite Hv. intros ? []. }
        constructor; [|constructor; [|constructor]].
        + apply S1. reflexivity.
        + apply sub_tuple. constructor; [apply S1; reflexivity|].
          clear - Ha S1. induction args as [|a args IH]; constructor.
          * apply S1. apply Ha. left; reflexivity.
          * apply IH. intros; apply Ha; right; auto.
      - pose proof (output_performs n) as W1.
        destruct (W1 "type" ["type"] [VStr e] w1 H) as [P1 K1]; [left; reflexivity|].
        eapply st_cons; [exact K1|exact P1|].
        destruct (W1 e cols args (lset L (sds_insert "output_type" ["type"] [VStr e] (lget L w1)) w1) H Hc) as [P2 K2].
        eapply st_cons; [exact K2| |constructor].
        change ("output_" ++ "type")%string with "output_type" in *.
        unfold w2. rewrite (lens_get_set _ HL), (lens_set_set _ HL) in P2. exact P2. }
    unfold bind. rewrite Es. reflexivity.
  Qed.
End Reporting.

(** what the basic output buffer keeps with each type of output *)
Definition reported_with : list (string * list string) :=
  [ ("type", ["type"]); ("value", ["value"]); ("value_with_unit", ["value"; "unit"]); ("table", ["results"; "units"]);
    ("list", ["elements"]); ("name_not_found", ["name"]); ("unknown_word", ["word"]) ].
Lemma reported_columns e cols : In (e, cols) reported_with <-> In ("output_" ++ e, cols)%string buffer_columns.
Proof.
  assert (Hb : buffer_columns = map (fun ec => ("output_" ++ fst ec, snd ec)%string) reported_with) by reflexivity.
  rewrite Hb, in_map_iff. split.
  - intros H. now exists (e, cols).
  - intros ([e' cols'] & E & H). cbn [fst snd String.append] in E. injection E as -> ->. exact H.
Qed.

(** With the basic output buffer an error that it has a relation for, such
    as [unknown_word], is stored together with its arguments. *)
Theorem C55_known_errors_are_reported :
  forall {W P O} (out : P -> O) (L : lens W sds_store) ms1 ms2 n bs w r w1 r1 e args cols,
    sole_buffer ms1 ms2 -> lens_ok L ->
    process_blocks P bs (w, r) = (Ok (mkBResult e args), (w1, r1)) -> bs <> [] -> e <> "" ->
    In (e, cols) reported_with ->
    (forall a, In a args -> atom_variables a = []) ->
    enter P O out (solver_store (reporting_mods L ms1 ms2) (S (S n))) bs (w, r) =
    (Ok None, (lset L (sds_insert ("output_" ++ e)%string cols args
                 (sds_insert "output_type" ["type"] [VStr e] (lget L w1))) w1, r1)).
Proof. intros; eapply report_known; eauto. now apply reported_columns. Qed.
Print Assumptions C55_known_errors_are_reported.

(** For any other error, [enter] raises, and [output_type] is stored. *)
Theorem C55_other_errors_raise_after_storing_the_type_refuted :
  forall {W P O} (out : P -> O) (L : lens W sds_store) ms1 ms2 n bs w r w1 r1 e args,
    sole_buffer ms1 ms2 ->
    process_blocks P bs (w, r) = (Ok (mkBResult e args), (w1, r1)) -> bs <> [] -> e <> "" ->
    (forall cols, ~ In (e, cols) reported_with) ->
    enter P O out (solver_store (reporting_mods L ms1 ms2) (S (S n))) bs (w, r) =
    (Exn (Raise ("No relation called 'output_" ++ e ++ "' available in the model")%string),
     (lset L (sds_insert "output_type" ["type"] [VStr e] (lget L w1)) w1, r1)).
Proof.
  intros W P O out L ms1 ms2 n bs w r w1 r1 e args H E Hne He Hno.
  unfold enter.
  assert (exists k, last_id P bs = Some k) as (k & ->).
  { unfold last_id. destruct (rev bs) eqn:Er; [|eauto].
    apply (f_equal (@rev _)) in Er. rewrite rev_involutive in Er. contradiction. }
  unfold bind at 1. rewrite E. unfold is_success. cbn [br_error].
  destruct (String.eqb_spec e ""); [contradiction|].
  unfold bind. cbn [fst snd]. unfold solver_store, error_atoms. cbn [br_error br_args].
  assert (HN : output_buffer L (lset L (sds_insert "output_type" ["type"] [VStr e] (lget L w1)) w1) ("output_" ++ e)%string = None).
  { unfold output_buffer.
    assert (G : forall l, (forall cols, ~ In ("output_" ++ e, cols)%string l) ->
      relation_get ("output_" ++ e)%string
        (map (fun pc => memory_relation (buffer_select L) (buffer_insert L) (fst pc) (snd pc)) l) = None).
    { induction l as [|[p c] l IH]; intros Hl; [reflexivity|]. cbn [map fst snd relation_get memory_relation r_pred].
      destruct (String.eqb_spec ("output_" ++ e)%string p) as [Ep|_].
      - exfalso. apply (Hl c). left. now rewrite Ep.
      - apply IH. intros c' Hc'. apply (Hl c'). now right. }
    apply G. intros cols Hc. apply (Hno cols). now apply reported_columns. }
  assert (Es : solve (reporting_mods L ms1 ms2) (S (S n)) (VList [VTuple [VStr "store";
        VList [VTuple [VStr "output_type"; VStr e]; VTuple (VStr ("output_" ++ e)%string :: args)]]]) [] w1
      = (Exn (no_relation ("output_" ++ e)%string),
         lset L (sds_insert "output_type" ["type"] [VStr e] (lget L w1)) w1)).
  { destruct (output_performs L ms1 ms2 n "type" ["type"] [VStr e] w1 H) as [P1 K1]; [left; reflexivity|].
    eapply (solve_store_fails (reporting_mods L ms1 ms2) n _ [] w1 [VTuple [VStr "output_type"; VStr e]]
              (bind_variables (VTuple (VStr ("output_" ++ e)%string :: args)) []) []).
    - now apply only_store.
    - cbn [app]. constructor; [apply (bind_substituted [] (VTuple [VStr "output_type"; VStr e]))|].
      constructor; [apply bind_substituted|constructor].
    - eapply st_cons; [exact K1|exact P1|constructor].
    - cbn [bind_variables map]. unfold write_atom. cbn [solver_at sv_write]. unfold write_F, atom_parts.
      unfold bind at 1. cbn [ret]. unfold bind at 1. cbn [get].
      rewrite (find_output L ms1 ms2 _ e H).
      change ("output_" ++ "type")%string with "output_type". rewrite HN. reflexivity. }
  unfold bind. rewrite Es. reflexivity.
Qed.
Print Assumptions C55_other_errors_raise_after_storing_the_type_refuted.

(** the parser's errors *)
Definition ex_L : lens sds_store sds_store := mkLens (fun s => s) (fun s _ => s).
Definition ex_error (e : string) (args : list value) : list (@block sds_store string) :=
  [ mkBlock FindOne (mkProc 1 (fun _ => ret (mkPResult [] e args))) ].
Example C55_example :
  @sole_buffer sds_store [] [] /\ lens_ok ex_L /\
  enter string string (fun x => x) (solver_store (reporting_mods ex_L [] []) 2) (ex_error "unknown_word" [VStr "xyz ..."]) ([], mkRequest "" [] [])
    = (Ok None, ([("output_type", [[("type", VStr "unknown_word")]]); ("output_unknown_word", [[("word", VStr "xyz ...")]])], mkRequest "" [] [])) /\
  (forall cols, ~ In ("not_understood", cols) reported_with) /\
  (forall cols, ~ In ("no_sentence", cols) reported_with) /\
  enter string string (fun x => x) (solver_store (reporting_mods ex_L [] []) 2) (ex_error "not_understood" []) ([], mkRequest "" [] [])
    = (Exn (Raise "No relation called 'output_not_understood' available in the model"), ([("output_type", [[("type", VStr "not_understood")]])], mkRequest "" [] [])).
Proof.
  split; [intros m []|]. split; [split; reflexivity|]. split; [reflexivity|].
  split; [intros cols H; simpl in H; intuition discriminate|].
  split; [intros cols H; simpl in H; intuition discriminate|]. reflexivity.
Qed.

(** ** C56 *)

(** Multilingual behaves as the processor registered for the current locale;
    it raises when there is none. *)
Theorem C56_processor_of_the_current_locale :
  forall {W P} (locale_of : P -> option string) k selector (m : list (string * @processor W P)) r w p l,
    NoDup (map fst m) ->
    get_current selector r = Some p -> locale_of p = Some l ->
    (forall q, In (l, q) m -> p_process (multilingual P locale_of k selector m) r w = p_process q r w) /\
    ((forall q, ~ In (l, q) m) -> exists msg, p_process (multilingual P locale_of k selector m) r w = (Exn (Raise msg), w)).
Proof.
  intros W P locale_of k selector m r w p l HD Hc Hl. unfold multilingual. cbn [p_process]. rewrite Hc, Hl.
  assert (G : forall q, In (l, q) m -> locale_get P l m = Some q).
  { clear - HD. induction m as [|[l' q'] m IH]; intros q Hq; [destruct Hq|]. simpl.
    inversion HD as [|? ? Hn HD']; subst. destruct Hq as [[= -> ->]|Hq]; [now rewrite String.eqb_refl|].
    destruct (String.eqb_spec l l') as [->|]; [|auto]. exfalso. apply Hn. apply (in_map fst) in Hq. exact Hq. }
  assert (G' : (forall q, ~ In (l, q) m) -> locale_get P l m = None).
  { clear. induction m as [|[l' q'] m IH]; intros Hq; [reflexivity|]. simpl.
    destruct (String.eqb_spec l l') as [->|]; [exfalso; apply (Hq q'); left; reflexivity|].
    apply IH. intros q H. apply (Hq q). right; auto. }
  split.
  - intros q Hq. now rewrite (G q Hq).
  - intros Hq. rewrite (G' Hq). eexists. reflexivity.
Qed.
Print Assumptions C56_processor_of_the_current_locale.

(** FindOne over the locales: the pipeline commits to the first locale for
    which the rest of the pipeline, with the processor of that locale,
    succeeds.  [fun_of l] is what the processor for [l] computes. *)
Theorem C56_first_locale_that_succeeds :
  forall {W P} (locale_product : string -> P) (locale_of : P -> option string) k1 k2 locales
         (procs : list (string * @processor W P)) (fun_of : string -> @pure_fun P)
         (rest : list (@block W P)) fs w r,
    let selector := mkBlock FindOne (language_selector P locale_product k1 locales) in
    let parser := mkBlock FindOne (multilingual P locale_of k2 k1 procs) in
    (forall l, locale_of (locale_product l) = Some l) ->
    NoDup (map fst procs) -> locales <> [] ->
    (forall l, In l locales -> productive (fun_of l) /\
       exists q, In (l, q) procs /\
         forall r w, get_current k1 r = Some (locale_product l) ->
           p_process q r w = (Ok (fun_of l (rq_text r) [locale_product l]), w)) ->
    Forall (fun b => b_kind b = FindOne) rest -> NoDup (k1 :: k2 :: ids rest) ->
    pure_after (fun t c => exists l x, In l locales /\ c = [locale_product l; x] /\ In x (offered (fun_of l) t [locale_product l]))
               [k1; k2] rest fs ->
    Forall productive fs ->
    exists res r', process_blocks P (selector :: parser :: rest) (w, r) = (Ok res, (w, r')) /\
      (succeeded res ->
        exists l1 l l2 ch, locales = l1 ++ l :: l2 /\
          first_survivor (rq_text r) (fun_of l :: fs) [locale_product l] ch /\
          (forall l' ch', In l' l1 -> ~ survives (rq_text r) (fun_of l' :: fs) [locale_product l'] ch') /\
          currents (k1 :: k2 :: ids rest) r' = map Some (locale_product l :: ch)) /\
      (~ succeeded res ->
        forall l ch, In l locales -> ~ survives (rq_text r) (fun_of l :: fs) [locale_product l] ch).
Proof.
  intros W P locale_product locale_of k1 k2 locales procs fun_of rest fs w r selector parser Hlp HDm Hne Hq HK HD HP HF.
  set (g2 := (fun t c => match c with [p] => match locale_of p with
                | Some l => if in_dec string_dec l locales then fun_of l t c else mkPResult [] "none" []
                | None => mkPResult [] "none" [] end | _ => mkPResult [] "none" [] end) : @pure_fun P).
  assert (Eg : forall t l, In l locales -> g2 t [locale_product l] = fun_of l t [locale_product l]).
  { intros t l Hl. unfold g2. rewrite Hlp. destruct (in_dec string_dec l locales); [reflexivity|contradiction]. }
  set (f1 := (fun _ _ => mkPResult (map locale_product locales) "" []) : @pure_fun P).
  destruct (C50_find_one_commits_to_the_first_survivor (selector :: parser :: rest) (f1 :: g2 :: fs) w r)
    as (res & r' & E & Hiff & HC).
  - constructor; [reflexivity|]. constructor; [reflexivity|exact HK].
  - exact HD.
  - split; [intros; reflexivity|]. split.
    + intros r0 w0 c (c0 & x & -> & -> & Hx) Hc. cbn [app] in *.
      apply in_map_iff in Hx as (l & <- & Hl).
      destruct (Hq l Hl) as (_ & q & Hm & Hp).
      assert (Hk : get_current k1 r0 = Some (locale_product l)) by (inversion Hc; reflexivity).
      destruct (C56_processor_of_the_current_locale locale_of k2 k1 procs r0 w0 (locale_product l) l HDm Hk (Hlp l)) as [G _].
      change (p_process (b_proc parser)) with (p_process (multilingual P locale_of k2 k1 procs)).
      rewrite (G q Hm), (Eg _ _ Hl). apply Hp. exact Hk.
    + assert (Mono : forall bs fs before (c1 c2 : string -> list P -> Prop), (forall t c, c2 t c -> c1 t c) ->
                pure_after c1 before bs fs -> @pure_after W P c2 before bs fs).
      { clear. induction bs as [|b bs IH]; intros [|f fs] before c1 c2 H; simpl; auto.
        intros [H1 H2]. split; [auto|]. eapply IH; [|exact H2].
        intros t c' (c & x & E & Hc & Hx). exists c, x. split; [exact E|]. split; [apply H; exact Hc|exact Hx]. }
      eapply Mono; [|exact HP]. intros t c' (c & x & -> & (c0 & y & -> & -> & Hy) & Hx). cbn [app] in *.
      apply in_map_iff in Hy as (l & <- & Hl). exists l, x. split; [exact Hl|]. split; [reflexivity|].
      unfold offered in *. rewrite (Eg _ _ Hl) in Hx. exact Hx.
  - constructor.
    + intros t c _. simpl. destruct locales; [contradiction|discriminate].
    + constructor; [|exact HF]. intros t c. unfold g2. destruct c as [|p [|? ?]]; try discriminate.
      destruct (locale_of p) as [l|]; try discriminate.
      destruct (in_dec string_dec l locales) as [Hl|]; try discriminate.
      destruct (Hq l Hl) as (Hp & _). apply Hp.
  - exists res, r'. split; [exact E|]. split.
    + intros HS. destruct (HC HS) as ([|x ch] & H1 & H2); [destruct H1|].
      destruct H1 as (_ & (l1 & l2 & El & HN) & H1). simpl in El.
      apply map_eq_app in El as (a & b0 & Ea & <- & Eb).
      apply map_eq_cons in Eb as (l & b1 & -> & <- & <-).
      assert (Hl : In l locales). { rewrite Ea. apply in_app_iff; right; left; reflexivity. }
      exists a, l, b1, ch. split; [exact Ea|]. split; [|split].
      * cbn [app] in H1. destruct ch as [|y ch]; [destruct H1|]. cbn [app first_survivor] in H1 |- *.
        rewrite (Eg _ _ Hl) in H1. exact H1.
      * intros l' ch' Hl' Hs. apply (HN (locale_product l') ch').
        -- apply in_map. exact Hl'.
        -- cbn [app]. assert (Hl2 : In l' locales) by (rewrite Ea; apply in_app_iff; auto).
           destruct ch' as [|y ch']; [destruct Hs|]. cbn [app survives] in Hs |- *. rewrite (Eg _ _ Hl2). exact Hs.
      * exact H2.
    + intros HS l ch Hl Hs. apply HS. apply Hiff. exists (locale_product l :: ch).
      split; [reflexivity|]. split; [simpl; apply in_map; exact Hl|].
      destruct ch as [|y ch]; [destruct Hs|]. cbn [app survives] in Hs |- *. rewrite (Eg _ _ Hl). exact Hs.
Qed.
Print Assumptions C56_first_locale_that_succeeds.

(** two locales; the Dutch processor rejects the text, the English one has
    two readings of which the next processor only accepts the second *)
Definition ex_locale_fun (l : string) : @pure_fun string := fun t c =>
  if String.eqb l "nl" then mkPResult [] "not_understood" [] else mkPResult [t ++ "1"; t ++ "2"]%string "" [].
Definition ex_locale_procs : list (string * @processor unit string) :=
  [ ("en", mkProc 10 (fun r => ret (ex_locale_fun "en" (rq_text r) []))); ("nl", mkProc 11 (fun r => ret (ex_locale_fun "nl" (rq_text r) []))) ].
Definition ex_accept : @pure_fun string := fun t c =>
  match c with [_; x] => if String.eqb x (t ++ "2")%string then mkPResult ["ok"] "" [] else mkPResult [] "no" [] | _ => mkPResult [] "no" [] end.
Definition ex_locales : list (@block unit string) :=
  [ mkBlock FindOne (language_selector string (fun l => l) 1 ["nl"; "en"]);
    mkBlock FindOne (multilingual string Some 2 1 ex_locale_procs);
    mkBlock FindOne (ex_proc 3 [1; 2] ex_accept) ].
Example C56_example :
  (forall l, In l ["nl"; "en"] -> productive (ex_locale_fun l) /\
       exists q, In (l, q) ex_locale_procs /\
         forall r w, get_current 1 r = Some l -> p_process q r w = (Ok (ex_locale_fun l (rq_text r) [l]), w)) /\
  NoDup (map fst ex_locale_procs) /\
  (let '(o, (_, r)) := process_blocks string ex_locales (tt, mkRequest "x" [] []) in
   o = Ok success /\ currents [1; 2; 3] r = [Some "en"; Some "x2"; Some "ok"]) /\
  (exists m, fst (process_blocks string
      (mkBlock FindOne (language_selector string (fun l => l) 1 ["fr"]) :: tl ex_locales) (tt, mkRequest "x" [] [])) = Exn (Raise m)).
Proof.
  split; [|split; [repeat constructor; simpl; intuition discriminate|split; [split; reflexivity|eexists; reflexivity]]].
  intros l [<-|[<-|[]]]; (split; [intros t c; simpl; discriminate|]).
  - eexists. split; [right; left; reflexivity|]. reflexivity.
  - eexists. split; [left; reflexivity|]. reflexivity.
Qed.

(** ** C57 *)

(** The executor never rejects an interpretation: when it does not raise, it
    has one product and no error, also when there are no solutions. *)
Theorem C57_executor_never_rejects :
  forall {W P} composed_of bindings_product (sv : solver_if W) k composer r w res w',
    p_process (atom_executor P composed_of bindings_product sv k composer) r w = (Ok res, w') ->
    exists s, res = mkPResult [bindings_product s] "" [].
Proof.
  intros W P composed_of bindings_product sv k composer r w res w' H. unfold atom_executor in H. cbn [p_process] in H.
  destruct (get_current composer r) as [p|]; [|discriminate].
  destruct (composed_of p) as [c|]; [|discriminate].
  apply bind_ok in H as (u & w1 & _ & H). apply bind_ok in H as (u' & w2 & _ & H).
  apply bind_ok in H as (b & w3 & _ & H). inversion H; subst. eauto.
Qed.
Print Assumptions C57_executor_never_rejects.

(** So in a FindOne pipeline that ends with an executor, the first
    interpretation that reaches it is final. *)
Theorem C57_first_interpretation_is_final :
  forall {W P} composed_of bindings_product (sv : solver_if W) (b : @block W P) k p w1 x l w r c w2 w3 w4 s2 s,
    b_kind b = FindOne ->
    p_id (b_proc b) <> k ->
    p_process (b_proc b) r w = (Ok p, w1) -> pr_error p = "" -> pr_products p = x :: l ->
    composed_of x = Some c ->
    foldM (fun _ a => sv_write sv a) tt (co_inferences c) w1 = (Ok tt, w2) ->
    sv_solve sv (co_executable c) [] w2 = (Ok s2, w3) ->
    sv_solve sv (co_semantics c) [] w3 = (Ok s, w4) ->
    exists r', process_blocks P [b; mkBlock FindOne (atom_executor P composed_of bindings_product sv k (p_id (b_proc b)))] (w, r)
               = (Ok success, (w4, r')) /\
      get_current (p_id (b_proc b)) r' = Some x /\ get_current k r' = Some (bindings_product s).
Proof.
  intros W P composed_of bindings_product sv b k p w1 x l w r c w2 w3 w4 s2 s Hk Hne Hp He Hl Hc H1 H2 H3.
  eexists. split.
  - change (process_blocks P (b :: ?bs)) with (process_block P (process_blocks P bs) b).
    cbn [process_blocks]. rewrite process_block_run, Hp, He. cbn [String.eqb]. unfold loop, remember. rewrite Hk, Hl.
    cbn [find_one]. rewrite modify_run. unfold bind at 1. rewrite process_block_run. cbn [b_proc p_process atom_executor].
    rewrite current_set, Nat.eqb_refl, Hc. unfold bind at 1. rewrite H1. unfold bind at 1. rewrite H2. unfold bind at 1. rewrite H3.
    cbn. reflexivity.
  - cbn [snd]. rewrite !current_set. rewrite Nat.eqb_refl.
    destruct (Nat.eqb_spec (p_id (b_proc b)) k); [contradiction|].
    cbn. rewrite ?current_set, ?dget_dput, ?Nat.eqb_refl. auto.
Qed.
Print Assumptions C57_first_interpretation_is_final.

(** the first interpretation has no solutions, and is accepted *)
Example C57_example :
  let sv := mkSolver (fun atoms _ (w : nat) => (Ok (SList (if is_none atoms then [[]] else [])), S w)) (fun _ w => (Ok tt, w)) in
  let composed_of := fun x => Some (mkComposed [] VNone (if String.eqb x "first" then VStr x else VNone)) in
  let parser := mkBlock FindOne (mkProc 1 (fun _ => ret (mkPResult ["first"; "second"] "" []))) in
  let executor := mkBlock FindOne (atom_executor string composed_of (fun s => match s with SList [] => "no solutions" | _ => "solutions" end) sv 2 1) in
  enter string string (fun x => x) (fun _ => ret tt) [parser; executor] (0, mkRequest "" [] [])
  = (Ok (Some "no solutions"), (2, mkRequest "" [(1, "first"); (2, "no solutions")] [(1, ["first"; "second"]); (2, ["no solutions"])])).
Proof. reflexivity. Qed.
