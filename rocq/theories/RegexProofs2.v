(** * Regular expressions: matching finds exactly the described texts *)

From Coq Require Import String Ascii List Bool Arith Lia.
From Verif Require Import Py InferenceModule Earley Lexer Effects Regex RegexSpec RegexProofs.
Import ListNotations.
Local Open Scope nat_scope.
Local Open Scope string_scope.
Local Open Scope list_scope.

Lemma append_nil s : append s "" = s.
Proof. induction s; simpl; congruence. Qed.
Lemma append_assoc a b c : append (append a b) c = append a (append b c).
Proof. induction a; simpl; congruence. Qed.
Lemma append_len a b : String.length (append a b) = String.length a + String.length b.
Proof. induction a; simpl; congruence. Qed.
Lemma take_drop n s : append (take n s) (drop n s) = s.
Proof. revert s. induction n as [|n IH]; intros [|c s]; simpl; congruence. Qed.
Lemma drop_append u v : drop (String.length u) (append u v) = v.
Proof. induction u; simpl; auto. Qed.
Lemma take_append u v : take (String.length u) (append u v) = u.
Proof. induction u; simpl; [now destruct v|congruence]. Qed.
Lemma take_len n s : n <= String.length s -> String.length (take n s) = n.
Proof. revert s. induction n as [|n IH]; intros [|c s] H; simpl in *; auto; [lia|]. rewrite IH; lia. Qed.
Lemma take_split n m s : take (n + m) s = append (take n s) (take m (drop n s)).
Proof. revert s. induction n as [|n IH]; intros [|c s]; simpl; auto. - now destruct m. - now rewrite IH. Qed.

(** a match of the pattern with the given length *)
Definition good_match (r : re) (s : string) (n : nat) : Prop :=
  n <= String.length s /\ describes r (take n s) (drop n s).

Lemma good_seq a b s n m : good_match a s n -> good_match b (drop n s) m -> good_match (RSeq a b) s (n + m).
Proof.
  intros [H1 H2] [H3 H4]. rewrite drop_len in H3. split; [lia|].
  rewrite take_split, <- drop_drop. apply d_seq; auto. now rewrite take_drop.
Qed.

(** lazy repetition has the same matches *)
Lemma lazy_same a k : forall s n, In n (lazy_from a k s) <-> In n (star_from a k s).
Proof.
  induction k as [|k IH]; intros s n; [reflexivity|]. cbn [lazy_from star_from].
  rewrite in_app_iff. cbn [In].
  assert (G : In n (flat_map (fun n => match n with O => [0] | S _ => map (Nat.add n) (lazy_from a k (drop n s)) end) (matches a s)) <->
              In n (flat_map (fun n => match n with O => [0] | S _ => map (Nat.add n) (star_from a k (drop n s)) end) (matches a s))).
  { rewrite !in_flat_map. split; intros (m & Hm & Hn); exists m; (split; [exact Hm|]); destruct m as [|m]; auto;
      rewrite in_map_iff in *; destruct Hn as (j & <- & Hj); exists j; (split; [reflexivity|]); now apply IH. }
  rewrite G. tauto.
Qed.
Lemma lazy_matches a s n : In n (matches (RLazy a) s) <-> In n (matches (RStar a) s).
Proof. apply (lazy_same a (S (String.length s)) s n). Qed.

Lemma good_star a (IHa : forall s n, In n (matches a s) -> good_match a s n) s n :
  In n (matches (RStar a) s) -> good_match (RStar a) s n.
Proof.
  change (matches (RStar a) s) with (star_from a (S (String.length s)) s).
  generalize (S (String.length s)). intros k. revert s n.
  induction k as [|k IH]; intros s n Hn.
  - destruct Hn as [<-|[]]. split; [lia|]. destruct s; constructor.
  - cbn [star_from] in Hn. apply in_app_or in Hn as [Hn|[<-|[]]].
    + apply in_flat_map in Hn as (m & Hm & Hn). destruct m as [|m].
      { destruct Hn as [<-|[]]. split; [lia|]. destruct s; constructor. }
      apply in_map_iff in Hn as (j & <- & Hj). apply IHa in Hm as [H1 H2]. apply IH in Hj as [H3 H4].
      rewrite drop_len in H3. split; [lia|].
      rewrite take_split, <- drop_drop. apply d_round; auto. now rewrite take_drop.
    + split; [lia|]. destruct s; constructor.
Qed.

Lemma item_meant i c : item_test i c = true <-> meant i c.
Proof.
  induction i as [d|a b| | | |j IH]; cbn [item_test meant]; try tauto.
  - apply Ascii.eqb_eq.
  - now rewrite andb_true_iff, !Nat.leb_le.
  - unfold digit_char. cbv zeta. now rewrite andb_true_iff, !Nat.leb_le.
  - rewrite <- IH. destruct (item_test j c); cbn; split; try tauto; congruence.
Qed.
Lemma class_meant b l c : class_test b l c = true <-> in_class b l c.
Proof.
  unfold class_test, in_class. destruct b.
  - rewrite xorb_true_l, negb_true_iff, <- not_true_iff_false, existsb_exists. split.
    + intros H i Hi Hm. apply H. exists i. split; [exact Hi|now apply item_meant].
    + intros H (i & Hi & Hm). apply (H i Hi). now apply item_meant.
  - rewrite xorb_false_l. destruct (existsb _ l) eqn:E.
    + split; [intros _|reflexivity]. apply existsb_exists in E. destruct E as (i & Hi & Hm). exists i. split; [exact Hi|now apply item_meant].
    + split; [discriminate|]. intros (i & Hi & Hm). rewrite <- E. apply existsb_exists. exists i. split; [exact Hi|now apply item_meant].
Qed.

Lemma match_sound r : forall s n, In n (matches r s) -> good_match r s n.
Proof.
  induction r as [|b l| |a IHa b IHb|a IHa b IHb|a IHa|a IHa|a IHa|]; intros s n Hn.
  - destruct Hn as [<-|[]]. split; [lia|]. destruct s; constructor.
  - destruct s as [|c s]; [destruct Hn|]. cbn [matches one_char] in Hn.
    destruct (class_test b l c) eqn:E; [destruct Hn as [<-|[]]|destruct Hn]. apply class_meant in E. split; [simpl; lia|].
    cbn [take drop]. destruct s; now constructor.
  - destruct s as [|c s]; [destruct Hn|]. cbn [matches one_char] in Hn.
    destruct (Ascii.eqb_spec c newline) as [|E]; [destruct Hn|]. destruct Hn as [<-|[]]. split; [simpl; lia|].
    cbn [take drop]. destruct s; now constructor.
  - rewrite matches_seq in Hn. apply in_flat_map in Hn as (k & Hk & Hn). apply in_map_iff in Hn as (m & <- & Hm).
    apply good_seq; auto.
  - cbn [matches] in Hn. apply in_app_or in Hn as [Hn|Hn]; [apply IHa in Hn|apply IHb in Hn]; destruct Hn as [H1 H2];
      (split; [exact H1|now constructor]).
  - now apply good_star.
  - apply lazy_matches, good_star in Hn; [|exact IHa]. destruct Hn as [H1 H2]. split; [exact H1|now constructor].
  - cbn [matches] in Hn. apply in_app_or in Hn as [Hn|[<-|[]]].
    + apply IHa in Hn as [H1 H2]. split; [exact H1|now constructor].
    + split; [lia|]. destruct s; apply d_none.
  - cbn [matches] in Hn. destruct s as [|c [|d s]]; [| |destruct Hn].
    + destruct Hn as [<-|[]]. split; [simpl; lia|constructor].
    + destruct (Ascii.eqb_spec c newline) as [->|]; [destruct Hn as [<-|[]]|destruct Hn]. split; [simpl; lia|constructor].
Qed.

Lemma match_complete r u rest : describes r u rest -> In (String.length u) (matches r (append u rest)).
Proof.
  induction 1 as [rest|b l c rest H|c rest H|a b u v rest H1 IH1 H2 IH2|a b u rest H IH|a b u rest H IH
                 |a rest|a u v rest H1 IH1 H2 IH2|a u rest H IH|a u rest H IH|a rest| |].
  - now left.
  - cbn [append matches one_char]. apply class_meant in H. rewrite H. now left.
  - cbn [append matches one_char]. apply Ascii.eqb_neq in H. rewrite H. now left.
  - rewrite matches_seq, append_assoc. apply in_flat_map. exists (String.length u). split; auto.
    rewrite drop_append, append_len. now apply in_map.
  - cbn [matches]. apply in_or_app. auto.
  - cbn [matches]. apply in_or_app. auto.
  - rewrite star_step. apply in_or_app. right. now left.
  - destruct u as [|c u]; [exact IH2|]. rewrite star_step, append_assoc, append_len. apply in_or_app. left.
    apply in_flat_map. exists (String.length (String c u)). split; [exact IH1|].
    cbn [String.length Nat.add]. apply in_map_iff. exists (String.length v). split; [reflexivity|].
    change (S (String.length u)) with (String.length (String c u)). now rewrite drop_append.
  - now apply lazy_matches.
  - cbn [matches]. apply in_or_app. auto.
  - cbn [matches]. apply in_or_app. right. now left.
  - now left.
  - now left.
Qed.

(** the matches, as lengths *)
Lemma matches_exactly r s n : In n (matches r s) <-> n <= String.length s /\ describes r (take n s) (drop n s).
Proof.
  split; [apply match_sound|]. intros [H1 H2]. apply match_complete in H2.
  rewrite take_drop, take_len in H2; auto.
Qed.

(** ** the end of a quoted text *)

Lemma get_S c s n : String.get (S n) (String c s) = String.get n s.
Proof. reflexivity. Qed.

(** whether the character before the text is a backslash *)
Definition escaped_at (before : bool) (s : string) (n : nat) : Prop :=
  (n = 0 /\ before = true) \/ after_backslash s n.

Lemma escaped_S b c s n : escaped_at b (String c s) (S n) <-> escaped_at (Ascii.eqb c backslash) s n.
Proof.
  unfold escaped_at, after_backslash. split.
  - intros [[F _]|(m & [= <-] & Hm)]; [discriminate|]. destruct n as [|n].
    + left. split; auto. simpl in Hm. injection Hm as ->. apply Ascii.eqb_refl.
    + right. exists n. auto.
  - intros [[-> E]|(m & -> & Hm)].
    + right. exists 0. split; auto. apply Ascii.eqb_eq in E. now subst c.
    + right. exists (S m). auto.
Qed.

Lemma no_quote_none q s : (forall n, ~ quote_at q s n) -> quoted_rest q s = None.
Proof.
  intros H. remember (String.length s) as k eqn:Ek. revert s Ek H.
  induction k as [k IH] using lt_wf_ind; intros s -> H. destruct s as [|c s]; [reflexivity|].
  assert (Hc : Ascii.eqb c q = false).
  { apply Ascii.eqb_neq. intros ->. now apply (H 0). }
  assert (Hs : forall n, ~ quote_at q s n) by (intros n Hn; now apply (H (S n))).
  cbn [quoted_rest]. rewrite Hc. destruct (Ascii.eqb c backslash).
  - destruct s as [|d s]; [reflexivity|].
    assert (Hd : Ascii.eqb d q = false) by (apply Ascii.eqb_neq; intros ->; now apply (Hs 0)).
    rewrite Hd, (IH (String.length (String d s))); auto.
  - rewrite (IH (String.length s)); auto.
Qed.

(** the first quote without a backslash *)
Lemma first_free_quote q s n : q <> backslash ->
  quote_at q s n -> ~ after_backslash s n ->
  (forall m, m < n -> quote_at q s m -> after_backslash s m) ->
  quoted_rest q s = Some (S n).
Proof.
  intros Hq. remember (String.length s) as k eqn:Ek. revert s n Ek.
  induction k as [k IH] using lt_wf_ind; intros s n -> Hn Hf Hm.
  destruct s as [|c s]; [destruct n; discriminate Hn|].
  destruct n as [|n].
  - injection Hn as ->. cbn [quoted_rest]. now rewrite Ascii.eqb_refl.
  - assert (Hc : Ascii.eqb c q = false).
    { apply Ascii.eqb_neq. intros ->. destruct (Hm 0) as (m & F & _); [lia|reflexivity|discriminate]. }
    cbn [quoted_rest]. rewrite Hc.
    assert (Hn' : quote_at q s n) by exact Hn.
    assert (Hf' : ~ after_backslash s n).
    { intros (m & -> & Hmm). apply Hf. exists (S m). auto. }
    destruct (Ascii.eqb_spec c backslash) as [->|Hb].
    + destruct s as [|d s]; [destruct n; discriminate Hn'|].
      destruct (Ascii.eqb_spec d q) as [->|Hd].
      * destruct n as [|n]; [exfalso; apply Hf; exists 0; auto|].
        rewrite (IH (String.length s)) with (n := n); auto; [simpl; lia| |].
        { intros (m & -> & Hmm). apply Hf'. exists (S m). auto. }
        intros m Hlt Hqm. destruct (Hm (S (S m))) as (j & [= <-] & Hj); [lia|exact Hqm|].
        destruct m as [|m]; [simpl in Hj; injection Hj as Hj; congruence|]. exists m. auto.
      * rewrite (IH (String.length (String d s))) with (n := n); auto.
        intros m Hlt Hqm. destruct (Hm (S m)) as (j & [= <-] & Hj); [lia|exact Hqm|].
        destruct m as [|m]; [injection Hqm as Hqm; congruence|]. exists m. auto.
    + rewrite (IH (String.length s)) with (n := n); auto.
      intros m Hlt Hqm. destruct (Hm (S m)) as (j & [= <-] & Hj); [lia|exact Hqm|].
      destruct m as [|m]; [injection Hj as Hj; congruence|]. exists m. auto.
Qed.

(** all quotes follow a backslash: the last one *)
Lemma last_quote q s n : q <> backslash ->
  (forall m, quote_at q s m -> after_backslash s m) ->
  quote_at q s n -> (forall m, n < m -> ~ quote_at q s m) ->
  quoted_rest q s = Some (S n).
Proof.
  intros Hq. remember (String.length s) as k eqn:Ek. revert s n Ek.
  induction k as [k IH] using lt_wf_ind; intros s n -> Ha Hn Hl.
  destruct s as [|c s]; [destruct n; discriminate Hn|].
  destruct n as [|n]; [destruct (Ha 0 Hn) as (m & F & _); discriminate|].
  assert (Hc : Ascii.eqb c q = false).
  { apply Ascii.eqb_neq. intros ->. destruct (Ha 0) as (m & F & _); [reflexivity|discriminate]. }
  cbn [quoted_rest]. rewrite Hc.
  destruct (Ascii.eqb_spec c backslash) as [->|Hb].
  - destruct s as [|d s]; [destruct n; discriminate Hn|].
    destruct (Ascii.eqb_spec d q) as [->|Hd].
    + destruct n as [|n].
      * rewrite no_quote_none; auto. intros m Hm. apply (Hl (S (S m))); [lia|exact Hm].
      * rewrite (IH (String.length s)) with (n := n); auto; [simpl; lia| |].
        -- intros m Hm. destruct (Ha (S (S m)) Hm) as (j & [= <-] & Hj).
           destruct m as [|m]; [simpl in Hj; injection Hj as Hj; congruence|]. exists m. auto.
        -- intros m Hm Hqm. apply (Hl (S (S m))); [lia|exact Hqm].
    + rewrite (IH (String.length (String d s))) with (n := n); auto.
      * intros m Hm. destruct (Ha (S m) Hm) as (j & [= <-] & Hj).
        destruct m as [|m]; [injection Hm as Hm; congruence|]. exists m. auto.
      * intros m Hm Hqm. apply (Hl (S m)); [lia|exact Hqm].
  - rewrite (IH (String.length s)) with (n := n); auto.
    + intros m Hm. destruct (Ha (S m) Hm) as (j & [= <-] & Hj).
      destruct m as [|m]; [injection Hj as Hj; congruence|]. exists m. auto.
    + intros m Hm Hqm. apply (Hl (S m)); [lia|exact Hqm].
Qed.

(** ** regular expressions in grammar rules *)

(** EarleyParser.py 197-204: [re.match(regexp, part)] and its group 0 *)
Definition py_match (pattern part : string) : outcome (option string) :=
  match compile pattern with
  | Some r => Ok (option_map (fun n => take n part) (re_match r part))
  | None => Exn (Raise "re.error")
  end.

Lemma py_match_prefix p s m : py_match p s = Ok (Some m) -> exists rest, s = append m rest.
Proof.
  unfold py_match. destruct (compile p) as [r|]; [|discriminate]. destruct (re_match r s) as [n|]; [|discriminate].
  intros [= <-]. exists (drop n s). now rewrite take_drop.
Qed.
