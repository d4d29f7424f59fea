From Coq Require Import ZArith String Ascii List Bool Lia.
From Verif Require Import Py PyFacts ReprProofs Effects EffectsFacts Sparql.
Import ListNotations.
Local Open Scope string_scope.
Local Open Scope list_scope.

Section Cache.
  Context {E : Type}.
  Variable lang : string.
  Variable ask : string -> M E response.
  Variable hash : string -> string.
  Notation csel := (cached_select E lang ask hash).
  Notation run := (run_selects E lang ask hash).
  Notation key := (cache_key hash).

  Lemma file_get_put n m c fs : file_get n (file_put m c fs) = if String.eqb n m then Some c else file_get n fs.
  Proof.
    induction fs as [|[k d] fs IH]; simpl.
    - destruct (String.eqb_spec n m); reflexivity.
    - destruct (String.eqb_spec m k); simpl.
      + subst. destruct (String.eqb_spec n k); reflexivity.
      + rewrite IH. destruct (String.eqb_spec n k); auto. subst. destruct (String.eqb_spec k m); congruence.
  Qed.

  (** a file, once there, is never changed *)
  Lemma select_keeps f q s n c : file_get n (files E s) = Some c ->
    file_get n (files E (snd (csel f q s))) = Some c.
  Proof.
    intros H. unfold cached_select. destruct (file_get (key q) (files E s)) as [[rows|]|] eqn:Ek; auto.
    assert (n <> key q) by congruence.
    destruct (do_select E lang ask q (endpoint E s)) as [[rows|e|] e'], f; simpl; auto;
      rewrite file_get_put; destruct (String.eqb_spec n (key q)); congruence.
  Qed.
  Lemma run_keeps h : forall s n c, file_get n (files E s) = Some c ->
    file_get n (files E (snd (run h s))) = Some c.
  Proof.
    induction h as [|[q f] h IH]; intros s n c H; simpl; auto.
    pose proof (select_keeps f q s n c H) as H1. destruct (csel f q s) as [r s1]. simpl in H1.
    specialize (IH s1 n c H1). destruct (run h s1) as [tr s2]. exact IH.
  Qed.

  (** a select of another key leaves a missing file missing *)
  Lemma select_other f q s n : n <> key q -> file_get n (files E s) = None ->
    file_get n (files E (snd (csel f q s))) = None.
  Proof.
    intros Hn H. unfold cached_select. destruct (file_get (key q) (files E s)) as [[rows|]|] eqn:Ek; auto.
    destruct (do_select E lang ask q (endpoint E s)) as [[rows|e|] e'], f; simpl; auto;
      rewrite file_get_put; destruct (String.eqb_spec n (key q)); congruence.
  Qed.

  Definition clean (f : fault) : Prop := f <> DumpFails /\ f <> DiesInDump.

  (** the file of [q] before and after a history without half-written results for [q] *)
  Lemma run_file q h : forall s,
    (forall q' f, In (q', f) h -> key q' = key q -> q' = q /\ clean f) ->
    file_get (key q) (files E s) = None ->
    let '(tr, s') := run h s in
    (forall r, In (q, NoFault, Answered r) tr -> file_get (key q) (files E s') = Some (Complete r)) /\
    ((forall r, ~ In (q, NoFault, Answered r) tr) -> file_get (key q) (files E s') = None).
  Proof.
    induction h as [|[q1 f1] h IH]; intros s Hh Hs; simpl.
    { split; auto. intros r []. }
    destruct (csel f1 q1 s) as [r1 s1] eqn:Ec. destruct (run h s1) as [tr s2] eqn:Er.
    assert (Hh' : forall q' f, In (q', f) h -> key q' = key q -> q' = q /\ clean f) by (intros; apply Hh; simpl; auto).
    destruct (string_dec (key q1) (key q)) as [Heq|Hne].
    - destruct (Hh q1 f1) as [-> [Hc1 Hc2]]; [now left|auto|].
      unfold cached_select in Ec. rewrite Hs in Ec.
      assert (Hhit : forall rows, file_get (key q) (files E s1) = Some (Complete rows) ->
        (forall r, In (q, NoFault, Answered r) tr -> r = rows) /\ file_get (key q) (files E s2) = Some (Complete rows)).
      { intros rows Hf. split.
        - intros r Hin. assert (G : forall h s0 tr0 s0', run h s0 = (tr0, s0') -> file_get (key q) (files E s0) = Some (Complete rows) ->
            In (q, NoFault, Answered r) tr0 -> r = rows).
          { clear. induction h as [|[q0 f0] h IH]; intros s0 tr0 s0'; simpl.
            - intros [= <- <-] _ [].
            - intros H Hg Hin. pose proof (select_keeps f0 q0 s0 _ _ Hg) as Hk.
              destruct (csel f0 q0 s0) as [r0 s1] eqn:Ec. simpl in Hk.
              destruct (run h s1) as [tr1 s2] eqn:Er. injection H as <- <-.
              destruct Hin as [[= -> -> ->]|Hin]; [|eauto].
              unfold cached_select in Ec. rewrite Hg in Ec. now injection Ec. }
          eapply G; eauto.
        - pose proof (run_keeps h s1 _ _ Hf) as Hk. now rewrite Er in Hk. }
      assert (Hmiss : file_get (key q) (files E s1) = None ->
        (forall r, In (q, NoFault, Answered r) tr -> file_get (key q) (files E s2) = Some (Complete r)) /\
        ((forall r, ~ In (q, NoFault, Answered r) tr) -> file_get (key q) (files E s2) = None)).
      { intros Hm. specialize (IH s1 Hh' Hm). now rewrite Er in IH. }
      destruct (do_select E lang ask q (endpoint E s)) as [[rows|e|] e'].
      + destruct f1; try congruence; injection Ec as <- <-.
        * destruct (Hhit rows) as [H1 H2]; [simpl; rewrite file_get_put, String.eqb_refl; reflexivity|].
          split.
          -- intros r [[= <-]|Hin]; auto. now rewrite (H1 r Hin).
          -- intros Hno. exfalso. apply (Hno rows). now left.
        * destruct (Hmiss Hs) as [H1 H2]. split; [intros r [Hx|Hin]; [discriminate|auto]|].
          intros Hno. apply H2. intros r Hin. apply (Hno r). now right.
        * destruct (Hmiss Hs) as [H1 H2]. split; [intros r [Hx|Hin]; [discriminate|auto]|].
          intros Hno. apply H2. intros r Hin. apply (Hno r). now right.
      + injection Ec as <- <-. destruct (Hmiss Hs) as [H1 H2]. split; [intros r [Hx|Hin]; [discriminate|auto]|].
        intros Hno. apply H2. intros r Hin. apply (Hno r). now right.
      + injection Ec as <- <-. destruct (Hmiss Hs) as [H1 H2]. split; [intros r [Hx|Hin]; [discriminate|auto]|].
        intros Hno. apply H2. intros r Hin. apply (Hno r). now right.
    - assert (Hm : file_get (key q) (files E s1) = None).
      { pose proof (select_other f1 q1 s (key q)) as H. rewrite Ec in H. apply H; auto. }
      specialize (IH s1 Hh' Hm). rewrite Er in IH. destruct IH as [H1 H2]. split.
      + intros r [[= -> _ _]|Hin]; [congruence|auto].
      + intros Hno. apply H2. intros r Hin. apply (Hno r). now right.
  Qed.

  (** a truncated file stays *)
  Lemma run_truncated q h : forall s, file_get (key q) (files E s) = Some Truncated ->
    let '(tr, s') := run h s in
    file_get (key q) (files E s') = Some Truncated /\
    forall f r, In (q, f, r) tr -> exists msg, r = Raised (Raise msg).
  Proof.
    induction h as [|[q1 f1] h IH]; intros s Hs; simpl; [split; auto; intros f r []|].
    pose proof (select_keeps f1 q1 s _ _ Hs) as Hk.
    destruct (csel f1 q1 s) as [r1 s1] eqn:Ec. simpl in Hk. specialize (IH s1 Hk).
    destruct (run h s1) as [tr s2]. destruct IH as [H1 H2]. split; auto.
    intros f r [[= -> -> ->]|Hin]; eauto. unfold cached_select in Ec. rewrite Hs in Ec. injection Ec as <- _. eauto.
  Qed.
End Cache.

(** ** the input of the hash *)
Definition no_bracket (s : string) : Prop := str_contains "["%char s = false.
Definition key_text (q : query) : string :=
  (q_table q ++ py_str (VList (map VStr (q_columns q))) ++ py_str (VList (q_values q)))%string.

Lemma bracket_split a b r1 r2 : no_bracket a -> no_bracket b ->
  (a ^^ String "["%char r1 = b ^^ String "["%char r2) -> a = b /\ r1 = r2.
Proof.
  unfold no_bracket. revert b. induction a as [|c a IH]; intros [|d b]; cbn [str_contains String.append]; intros Ha Hb H.
  - now injection H.
  - injection H as <- _. rewrite Ascii.eqb_refl in Hb. discriminate.
  - injection H as -> _. rewrite Ascii.eqb_refl in Ha. discriminate.
  - injection H as -> H. apply orb_false_iff in Ha as [_ Ha], Hb as [_ Hb].
    destruct (IH b Ha Hb H) as [-> ->]. auto.
Qed.

Lemma strings_data l : forallb data (map VStr l) = true.
Proof. induction l; auto. Qed.
Lemma all_pre_inj l : Forall pre_inj l.
Proof. apply Forall_forall. intros x _. apply repr_pre_inj. Qed.

Lemma key_text_injective q1 q2 : no_bracket (q_table q1) -> no_bracket (q_table q2) ->
  forallb data (q_values q1) = true -> forallb data (q_values q2) = true ->
  key_text q1 = key_text q2 -> q1 = q2.
Proof.
  destruct q1 as [t1 c1 v1], q2 as [t2 c2 v2]. unfold key_text. simpl. intros Ht1 Ht2 Hv1 Hv2 H.
  rewrite !app_assoc_s in H. simpl in H. apply bracket_split in H as [-> H]; auto.
  apply list_items_inj in H as [Hc H]; auto using all_pre_inj, strings_data; [|now left|now left].
  simpl in H. injection H as H. apply list_items_inj in H as [-> _]; auto using all_pre_inj; [|now left|now left].
  f_equal. clear -Hc. revert c2 Hc. induction c1 as [|a c1 IH]; intros [|b c2]; simpl; intros H; try discriminate; auto.
  injection H as -> H. now rewrite (IH c2).
Qed.
