(** * Lemmas about the index of completed states and tree extraction *)

From Coq Require Import ZArith String Ascii List Bool Arith Lia.
From Verif Require Import Py Effects Grammar Earley ParserSpec GrammarProofs EarleyProofs.
Import ListNotations.
Local Open Scope string_scope.
Local Open Scope list_scope.
Local Open Scope outcome_scope.

Lemma omap_spec {A B} (f : A -> outcome B) l : forall ys, omap f l = Ok ys <-> Forall2 (fun x y => f x = Ok y) l ys.
Proof.
  induction l as [|x l IH]; intros ys; simpl.
  - split; [intros [= <-]; constructor|intros H; inversion H; reflexivity].
  - split.
    + intros H. apply obind_ok in H as (y & H1 & H). apply obind_ok in H as (ys' & H2 & [= <-]).
      constructor; auto. now apply IH.
    + intros H. inversion H as [|? y ? ys' H1 H2]; subst. rewrite H1. simpl. apply IH in H2. now rewrite H2.
Qed.

Lemma product_spec {A} (l : list (list A)) : forall xs, In xs (product l) <-> Forall2 (@In A) xs l.
Proof.
  induction l as [|ys l IH]; intros xs; simpl.
  - split; [intros [<-|[]]; constructor|intros H; inversion H; auto].
  - rewrite in_flat_map. split.
    + intros (x & Hx & H). apply in_map_iff in H as (xs' & <- & H). constructor; auto. now apply IH.
    + intros H. inversion H as [|x ? xs' ? Hx H']; subst. exists x. split; auto. apply in_map. now apply IH.
Qed.

Section Extract.
  Context {S : Type}.
  Notation rule := (grule S).
  Notation cstate := (@cstate S).
  Notation chart := (@chart S).

  Lemma completed_get_add (s : cstate) d e :
    completed_get e (completed_add s d) =
    if Nat.eqb e (s_end s) then Some (match completed_get e d with Some l => l ++ [s] | None => [s] end)
    else completed_get e d.
  Proof.
    induction d as [|[k l] d IH]; simpl.
    - destruct (Nat.eqb_spec e (s_end s)); reflexivity.
    - destruct (Nat.eqb_spec (s_end s) k) as [<-|Hn]; simpl.
      + destruct (Nat.eqb_spec e (s_end s)); reflexivity.
      + rewrite IH. destruct (Nat.eqb_spec e k) as [->|He]; [|reflexivity].
        destruct (Nat.eqb_spec k (s_end s)) as [E|_]; [congruence|reflexivity].
  Qed.

  (** [s] is among the completed states for position [e] *)
  Definition completed_at (ch : chart) (e : nat) (s : cstate) : Prop :=
    exists l, completed_get e (ch_completed ch) = Some l /\ In s l.

  (** completed states for constituents [cs], one after the other from [i] to
      [j]; none ends at 0 *)
  Inductive chain (ch : chart) : list constituent -> nat -> nat -> list cstate -> Prop :=
  | chain_nil i : chain ch [] i i []
  | chain_cons c cs i j k s sts :
      completed_at ch j s -> same_kind (g_ante (s_rule s)) c -> s_start s = i -> 0 < j ->
      chain ch cs j k sts -> chain ch (c :: cs) i k (s :: sts).

  Lemma chain_snoc ch cs c : forall i k sts,
    chain ch (cs ++ [c]) i k sts <->
    exists sts' s, sts = sts' ++ [s] /\ chain ch cs i (s_start s) sts' /\
      completed_at ch k s /\ same_kind (g_ante (s_rule s)) c /\ 0 < k.
  Proof.
    induction cs as [|d cs IH]; intros i k sts; simpl.
    - split.
      + intros H. inversion H as [|? ? ? ? ? s' sts' ? ? ? ? HC]; subst. inversion HC; subst.
        exists [], s'. split; [reflexivity|]. split; [constructor|]. auto.
      + intros (sts' & s & -> & H & H1 & H2 & H3). inversion H; subst. simpl. econstructor; eauto. constructor.
    - split.
      + intros H. inversion H as [|? ? ? j ? s' sts' ? ? ? ? HC]; subst. apply IH in HC as (sts2 & x & -> & Hc & H').
        exists (s' :: sts2), x. split; [reflexivity|]. split; [|exact H']. econstructor; eauto.
      + intros (sts' & s & -> & H & H'). inversion H as [|? ? ? j ? s' sts2 ? ? ? ? HC]; subst. simpl.
        econstructor; eauto. apply IH. exists sts2, s. auto.
  Qed.

  Lemma firstn_snoc {A} (l : list A) k x : nth_error l k = Some x -> firstn (k + 1) l = firstn k l ++ [x].
  Proof.
    revert k. induction l as [|y l IH]; intros [|k]; simpl; try discriminate.
    - intros [= <-]. reflexivity.
    - intros H. f_equal. now apply IH.
  Qed.

  (** the lists of [omap] followed by [concat] *)
  Lemma in_concat_omap {A B} (f : A -> outcome (list B)) l bs : omap f l = Ok bs ->
    forall b, In b (concat bs) <-> exists a ys, In a l /\ f a = Ok ys /\ In b ys.
  Proof.
    rewrite omap_spec. induction 1 as [|x y l ys Hx HF IH]; intros b; simpl.
    - split; [contradiction|]. intros (? & ? & [] & _).
    - rewrite in_app_iff, IH. split.
      + intros [Hb|(a & zs & ? & ? & ?)]; [exists x, y; auto|exists a, zs; auto].
      + intros (a & zs & [<-|Ha] & E & Hb); [left; congruence|right; eauto].
  Qed.

  Lemma find_sequences_spec ch parent k : forall e seqs,
    find_sequences ch parent k e = Ok seqs -> k < length (g_cons (s_rule parent)) ->
    forall sts, In sts seqs <-> chain ch (firstn (k + 1) (g_cons (s_rule parent))) (s_start parent) e sts.
  Proof.
    induction k as [|k IH]; intros e seqs H Hk sts.
    - destruct (nth_error (g_cons (s_rule parent)) 0) as [c|] eqn:En; [|apply nth_error_None in En; lia].
      rewrite (firstn_snoc _ _ _ En), chain_snoc. simpl in H. destruct (Nat.eqb_spec e 0) as [->|He].
      + inversion H; subst. split; [contradiction|]. intros (? & ? & _ & _ & _ & _ & ?). lia.
      + destruct (completed_get e (ch_completed ch)) as [states|] eqn:Eg; [|discriminate].
        apply obind_ok in H as (found & H & [= <-]). rewrite (in_concat_omap _ _ _ H). simpl in En. rewrite En. split.
        * intros (s & ys & Hs & E & Hin). destruct (cons_equals (g_ante (s_rule s)) c) eqn:Ee; injection E as <-; [|contradiction].
          destruct (Nat.eqb_spec (s_start s) (s_start parent)) as [Est|]; [|contradiction]. destruct Hin as [<-|[]].
          exists [], s. split; [reflexivity|]. rewrite Est. split; [constructor|]. split; [exists states; auto|].
          split; [now apply cons_equals_iff|lia].
        * intros (sts' & s & -> & HC & (l & El & Hl) & Hk' & _). inversion HC; subst.
          exists s. eexists. split; [congruence|]. apply cons_equals_iff in Hk'. rewrite Hk'. split; [reflexivity|].
          rewrite <- H0. rewrite Nat.eqb_refl. left; auto.
    - destruct (nth_error (g_cons (s_rule parent)) (Datatypes.S k)) as [c|] eqn:En; [|apply nth_error_None in En; lia].
      rewrite (firstn_snoc _ _ _ En), chain_snoc. cbn [find_sequences] in H. destruct (Nat.eqb_spec e 0) as [->|He].
      + inversion H; subst. split; [contradiction|]. intros (? & ? & _ & _ & _ & _ & ?). lia.
      + destruct (completed_get e (ch_completed ch)) as [states|] eqn:Eg; [|discriminate].
        apply obind_ok in H as (found & H & [= <-]). rewrite (in_concat_omap _ _ _ H). rewrite En. split.
        * intros (s & ys & Hs & E & Hin). destruct (cons_equals (g_ante (s_rule s)) c) eqn:Ee; [|injection E as <-; contradiction].
          apply obind_ok in E as (prevs & Ep & [= <-]). apply in_map_iff in Hin as (p & <- & Hp).
          apply (IH _ _ Ep) in Hp; [|lia]. exists p, s. split; [reflexivity|].
          replace (Datatypes.S k) with (k + 1) by lia. split; [exact Hp|]. split; [exists states; auto|].
          split; [now apply cons_equals_iff|lia].
        * intros (sts' & s & -> & HC & (l & El & Hl) & Hk' & _). apply cons_equals_iff in Hk'.
          assert (l = states) by congruence. subst l.
          assert (Hs : exists ys, (if cons_equals (g_ante (s_rule s)) c
                        then prevs <- find_sequences ch parent k (s_start s);; Ok (map (fun p => p ++ [s]) prevs) else Ok []) = Ok ys).
          { apply omap_spec in H. revert Hl H. clear -En. intros Hl HF. induction HF as [|x y states found Hx HF IHF]; [contradiction|].
            destruct Hl as [->|Hl]; [|auto]. rewrite En in Hx. eauto. }
          destruct Hs as (ys & Hys). exists s, ys. split; [exact Hl|]. split; [exact Hys|].
          rewrite Hk' in Hys. apply obind_ok in Hys as (prevs & Ep & [= <-]). apply in_map_iff. exists sts'. split; [reflexivity|].
          apply (IH _ _ Ep); [lia|]. replace (k + 1) with (Datatypes.S k) by lia. exact HC.
  Qed.

  (** ** the trees of a state *)
  Inductive tree_of (ch : chart) : cstate -> tree -> Prop :=
  | tree_terminal s c cs :
      is_terminal s = Ok true -> g_cons (s_rule s) = c :: cs ->
      tree_of ch s (Node (k_pred (g_ante (s_rule s))) [] (k_pred c) (s_rule s))
  | tree_inner s sts ts :
      is_terminal s = Ok false -> chain ch (g_cons (s_rule s)) (s_start s) (s_end s) sts ->
      Forall2 (tree_of ch) sts ts ->
      tree_of ch s (Node (k_pred (g_ante (s_rule s))) ts "" (s_rule s)).

  Lemma is_terminal_cons (s : cstate) b : is_terminal s = Ok b -> g_cons (s_rule s) <> [].
  Proof. unfold is_terminal. destruct (g_cons (s_rule s)); [discriminate|congruence]. Qed.

  Lemma create_trees_spec ch n : forall s ts, create_trees n ch s = Ok ts -> forall t, In t ts <-> tree_of ch s t.
  Proof.
    induction n as [|n IH]; intros s ts H t; simpl in H; [discriminate|].
    apply obind_ok in H as (b & Hb & H). destruct b.
    - destruct (g_cons (s_rule s)) as [|c cs] eqn:Ec; [discriminate|]. injection H as <-. split.
      + intros [<-|[]]. eapply tree_terminal; eauto.
      + intros Ht. inversion Ht; subst; [|congruence]. left. congruence.
    - apply obind_ok in H as (seqs & Hq & H). apply obind_ok in H as (tss & Ht & [= <-]).
      pose proof (is_terminal_cons _ _ Hb) as Hne.
      assert (Hl : length (g_cons (s_rule s)) - 1 < length (g_cons (s_rule s))).
      { destruct (g_cons (s_rule s)); simpl; [congruence|lia]. }
      pose proof (find_sequences_spec _ _ _ _ _ Hq Hl) as HS.
      replace (length (g_cons (s_rule s)) - 1 + 1) with (length (g_cons (s_rule s))) in HS by lia. rewrite firstn_all in HS.
      rewrite (in_concat_omap _ _ _ Ht). split.
      + intros (sts & ys & Hsts & E & Hin). apply obind_ok in E as (per & Hper & [= <-]).
        apply in_map_iff in Hin as (children & <- & Hc). apply product_spec in Hc. apply omap_spec in Hper.
        eapply tree_inner; [exact Hb|apply HS; exact Hsts|].
        clear -IH Hper Hc. revert children Hc. induction Hper as [|x y sts per Hx HF IHF]; intros children Hc; inversion Hc; subst; constructor; auto.
        eapply IH; eassumption.
      + intros Hto. inversion Hto as [|s' sts cts Hb' HC HF]; subst; [congruence|].
        apply HS in HC.
        assert (Hsts : exists ys, (per_state <- omap (create_trees n ch) sts ;;
           Ok (map (fun children => Node (k_pred (g_ante (s_rule s))) children "" (s_rule s)) (product per_state))) = Ok ys).
        { apply omap_spec in Ht. revert HC Ht. clear. intros HC HF. induction HF as [|x y l found Hx HF IHF]; [contradiction|].
          destruct HC as [->|Hl]; [eauto|auto]. }
        destruct Hsts as (ys & Hys). exists sts, ys. split; [exact HC|]. split; [exact Hys|].
        apply obind_ok in Hys as (per & Hper & [= <-]). apply in_map_iff. exists cts. split; [reflexivity|]. apply product_spec. apply omap_spec in Hper.
        clear -IH Hper HF. revert cts HF. induction Hper as [|x y sts per Hx HP IHF]; intros cts HF; inversion HF; subst; constructor; auto.
        eapply IH; eassumption.
  Qed.

  Section Roots.
    Variable gamma_mean : S.
    Lemma extract_spec ch n roots : extract_tree_roots gamma_mean n ch = Ok roots ->
      forall t, In t roots -> exists cat cat2 more more2 form form2 r r2,
        tree_of ch (complete_gamma gamma_mean (ch_text ch)) (Node cat (Node cat2 (t :: more) form r :: more2) form2 r2).
    Proof.
      unfold extract_tree_roots. intros H t Ht. destruct (completed_get _ _); [|injection H as <-; contradiction].
      apply obind_ok in H as (ts & Hts & H). apply omap_spec in H.
      assert (Hx : exists g, In g ts /\ strip_root g = Ok t).
      { clear -H Ht. induction H as [|x y ts roots Hx HF IH]; [contradiction|].
        destruct Ht as [->|Ht]; [exists x; split; [left|]; auto|]. destruct (IH Ht) as (g & ? & ?). exists g. split; [right|]; auto. }
      destruct Hx as (g & Hg & Hs). apply (create_trees_spec _ _ _ _ Hts) in Hg.
      destruct g as [cat [|[cat2 [|x more] form r] more2] form2 r2]; try discriminate. injection Hs as ->.
      do 8 eexists. exact Hg.
    Qed.
    Lemma extract_complete ch n roots : extract_tree_roots gamma_mean n ch = Ok roots ->
      (exists l, completed_get (String.length (ch_text ch)) (ch_completed ch) = Some l) ->
      forall cat cat2 t more more2 form form2 r r2,
        tree_of ch (complete_gamma gamma_mean (ch_text ch)) (Node cat (Node cat2 (t :: more) form r :: more2) form2 r2) ->
        In t roots.
    Proof.
      unfold extract_tree_roots. cbn [s_end complete_gamma]. intros H (l & El). rewrite El in H. intros.
      apply obind_ok in H as (ts & Hts & H). apply (create_trees_spec _ _ _ _ Hts) in H0. apply omap_spec in H.
      clear -H H0. induction H as [|x y ts roots Hx HF IH]; [contradiction|].
      destruct H0 as [->|H0]; [left|right; auto]. simpl in Hx. congruence.
    Qed.
  End Roots.
End Extract.
