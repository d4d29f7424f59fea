(** * Lemmas about variants of rules and the grammar index *)

From Coq Require Import ZArith String List Bool Arith Lia.
From Verif Require Import Py Effects Grammar Earley ParserSpec.
Import ListNotations.
Local Open Scope string_scope.
Local Open Scope list_scope.

Lemma ptype_eqb_iff a b : ptype_eqb a b = true <-> a = b.
Proof. destruct a, b; simpl; split; congruence. Qed.

Lemma cons_equals_iff a b : cons_equals a b = true <-> same_kind a b.
Proof.
  unfold cons_equals, same_kind. rewrite !andb_true_iff, String.eqb_eq, Nat.eqb_eq, ptype_eqb_iff. tauto.
Qed.
Lemma all_equal_iff a : forall b, all_equal a b = true <-> Forall2 same_kind a b.
Proof.
  induction a as [|x a IH]; intros [|y b]; simpl.
  - split; auto.
  - split; [discriminate|intros H; inversion H].
  - split; [discriminate|intros H; inversion H].
  - rewrite andb_true_iff, cons_equals_iff, IH. split; [intros []; auto|intros H; inversion H; auto].
Qed.
Lemma chash_eqb_iff a b : chash_eqb a b = true <-> a = b.
Proof.
  destruct a as [x [y t]], b as [x' [y' t']]. unfold chash_eqb, strings_eqb. simpl.
  rewrite !andb_true_iff, String.eqb_eq, ptype_eqb_iff.
  destruct (list_eq_dec string_dec x x'); split.
  - intros ((_ & ->) & ->). now subst.
  - intros [= -> -> ->]. auto.
  - intros ((? & _) & _). discriminate.
  - intros [= -> -> ->]. contradiction.
Qed.
Lemma hash_eqb_iff a : forall b, hash_eqb a b = true <-> a = b.
Proof.
  induction a as [|x a IH]; intros [|y b]; simpl; try (split; congruence).
  rewrite andb_true_iff, chash_eqb_iff, IH. split; [intros [-> ->]; auto|intros [= -> ->]; auto].
Qed.
Lemma rule_equals_iff {S T} (a : grule S) (b : grule T) :
  rule_equals a b = true <-> same_kind (g_ante a) (g_ante b) /\ Forall2 same_kind (g_cons a) (g_cons b).
Proof. unfold rule_equals. now rewrite andb_true_iff, cons_equals_iff, all_equal_iff. Qed.

Lemma same_kind_refl a : same_kind a a.
Proof. repeat split. Qed.
Lemma same_kind_sym a b : same_kind a b -> same_kind b a.
Proof. intros (? & ? & ?). repeat split; congruence. Qed.
Lemma same_kind_trans a b c : same_kind a b -> same_kind b c -> same_kind a c.
Proof. intros (? & ? & ?) (? & ? & ?). repeat split; congruence. Qed.

(** ** the variants *)
Lemma word_test_iff first c l rest :
  ((first && k_optional c && negb (k_separator c) && k_separator l) ||
   (k_separator c && k_optional l && negb (k_separator l)) = true) <-> starts_with_optional_word first (c :: l :: rest).
Proof.
  rewrite orb_true_iff, !andb_true_iff, !negb_true_iff. unfold starts_with_optional_word, opt, sep. split.
  - intros H. exists c, l, rest. split; [reflexivity|].
    destruct H as [(((? & ?) & Hc) & ?)|((? & ?) & Hl)]; [left|right]; repeat split; auto; congruence.
  - intros (c' & l' & rest' & [= <- <- <-] & [(? & ? & Hc & ?)|(? & ? & Hl)]); [left|right]; repeat split; auto.
    + destruct (k_separator c); auto. contradiction.
    + destruct (k_separator l); auto. contradiction.
Qed.

(** keeping [ks] or not, before each of [vars] *)
Lemma expand_optional (ks : list constituent) (vs vars : list (list constituent)) :
  flat_map (fun v => map (fun p => p ++ v) (map (fun v0 => v0 ++ ks) vs ++ vs)) vars =
  flat_map (fun v => map (fun p => p ++ v) vs) (flat_map (fun v => [ks ++ v; v]) vars).
Proof.
  induction vars as [|v vars IHv]; simpl; [reflexivity|]. rewrite IHv, map_app, map_map, app_assoc. f_equal. f_equal.
  apply map_ext. intros p. now rewrite app_assoc.
Qed.
Lemma expand_mandatory (ks : list constituent) (vs vars : list (list constituent)) :
  flat_map (fun v => map (fun p => p ++ v) (map (fun v0 => v0 ++ ks) vs)) vars =
  flat_map (fun v => map (fun p => p ++ v) vs) (map (fun v => ks ++ v) vars).
Proof.
  induction vars as [|v vars IHv]; simpl; [reflexivity|]. rewrite IHv, map_map. f_equal.
  apply map_ext. intros p. now rewrite app_assoc.
Qed.

(** the variants, in their order: later choices vary slowest *)
Lemma variants_rest_spec cs : forall first vs,
  exists vars, variants_rest first cs vs = flat_map (fun v => map (fun p => p ++ v) vs) vars /\
    (forall v, In v vars <-> variant first cs v) /\ exists more, vars = cs :: more.
Proof.
  induction cs as [cs IH] using (induction_ltof1 _ (@length constituent)); unfold ltof in IH.
  intros first vs. destruct cs as [|c rest].
  - exists [[]]. simpl. rewrite app_nil_r. split; [|split; [|exists []; reflexivity]].
    + rewrite map_ext with (g := fun p => p); [now rewrite map_id|]. intros p. now rewrite app_nil_r.
    + intros v. split; [intros [<-|[]]; constructor|]. intros H. inversion H. now left.
  - (* one constituent at a time *)
    assert (Hone : ~ starts_with_optional_word first (c :: rest) ->
      exists vars,
        variants_rest false rest (if k_optional c then map (fun v => v ++ [c]) vs ++ vs else map (fun v => v ++ [c]) vs)
          = flat_map (fun v => map (fun p => p ++ v) vs) vars /\
        (forall v, In v vars <-> variant first (c :: rest) v) /\ exists more, vars = (c :: rest) :: more).
    { intros Hn. destruct (k_optional c) eqn:Ec.
      - destruct (IH rest (ltac:(simpl; lia)) false (map (fun v => v ++ [c]) vs ++ vs)) as (vars & -> & Hv & more & ->).
        eexists. split; [apply expand_optional|]. split; [|eexists; reflexivity].
        intros v. rewrite in_flat_map. split.
        + intros (u & Hu & [<-|[<-|[]]]); [apply variant_keep|apply variant_drop]; auto; now apply Hv.
        + intros H. inversion H; subst; try contradiction.
          * exists v0. split; [now apply Hv|left; auto].
          * exists v. split; [now apply Hv|right; left; auto].
      - destruct (IH rest (ltac:(simpl; lia)) false (map (fun v => v ++ [c]) vs)) as (vars & -> & Hv & more & ->).
        eexists. split; [apply expand_mandatory|]. split; [|eexists; reflexivity].
        intros v. rewrite in_map_iff. split.
        + intros (u & <- & Hu). apply variant_keep; auto. now apply Hv.
        + intros H. inversion H; subst; try contradiction.
          * exists v0. split; [auto|now apply Hv].
          * unfold opt in *. congruence. }
    destruct rest as [|l rest'].
    + assert (Hn : ~ starts_with_optional_word first [c]) by (intros (? & ? & ? & [=] & _)).
      destruct (Hone Hn) as (vars & Hvars). exists vars. cbn [variants_rest] in *. exact Hvars.
    + pose proof (word_test_iff first c l rest') as Hw.
      assert (Hboth : starts_with_optional_word first (c :: l :: rest') ->
        exists vars,
          variants_rest false rest' (map (fun v => v ++ [c; l]) vs ++ vs)
            = flat_map (fun v => map (fun p => p ++ v) vs) vars /\
          (forall v, In v vars <-> variant first (c :: l :: rest') v) /\ exists more, vars = (c :: l :: rest') :: more).
      { intros Hy. destruct (IH rest' (ltac:(simpl; lia)) false (map (fun v => v ++ [c; l]) vs ++ vs)) as (vars & -> & Hv & more & ->).
        eexists. split; [apply expand_optional|]. split; [|eexists; reflexivity].
        intros v. rewrite in_flat_map. split.
        - intros (u & Hu & [<-|[<-|[]]]); [apply variant_keep_both|apply variant_drop_both]; auto; now apply Hv.
        - intros H. inversion H; subst; try contradiction.
          + exists v0. split; [now apply Hv|left; auto].
          + exists v. split; [now apply Hv|right; left; auto]. }
      cbn [variants_rest].
      destruct (first && k_optional c && negb (k_separator c) && k_separator l) eqn:E1;
        [apply Hboth, Hw; reflexivity|].
      destruct (k_separator c && k_optional l && negb (k_separator l)) eqn:E2;
        [apply Hboth, Hw; now rewrite orb_true_r|].
      assert (Hn : ~ starts_with_optional_word first (c :: l :: rest')) by (intros Hy; apply Hw in Hy; discriminate).
      destruct (Hone Hn) as (vars & Hvars). exists vars. destruct (k_optional c); exact Hvars.
Qed.

Lemma variants_spec {S} (r : grule S) :
  (forall r', In r' (create_rule_variants r) <-> rule_variant r r') /\ exists more, create_rule_variants r = r :: more.
Proof.
  unfold create_rule_variants. destruct (variants_rest_spec (g_cons r) true [[]]) as (vars & E & Hv & more & ->).
  assert (Hm : forall l : list (list constituent), flat_map (fun v => map (fun p => p ++ v) [[]]) l = l).
  { induction l as [|a l IH]; [reflexivity|]. simpl in IH |- *. now rewrite IH. }
  rewrite E, Hm. split.
  - intros r'. rewrite in_map_iff. split.
    + intros (cs & <- & Hcs). unfold rule_variant. simpl. repeat (split; [reflexivity|]). apply Hv. exact Hcs.
    + intros (H1 & H2 & H3 & H4 & H5). exists (g_cons r'). split.
      * destruct r'. simpl in *. subst. reflexivity.
      * apply Hv in H5. exact H5.
  - destruct r. simpl. eexists. reflexivity.
Qed.

(** ** the index *)
Lemma counts_get_put {S} n (rs : list (grule S)) l m :
  counts_get m (counts_put n rs l) = if Nat.eqb m n then Some rs else counts_get m l.
Proof.
  induction l as [|[k rs'] l IH]; simpl.
  - destruct (Nat.eqb_spec m n); reflexivity.
  - destruct (Nat.eqb_spec n k) as [->|Hn]; simpl.
    + destruct (Nat.eqb_spec m k); reflexivity.
    + rewrite IH. destruct (Nat.eqb_spec m k), (Nat.eqb_spec m n); subst; try reflexivity. contradiction.
Qed.
Lemma index_get_put {S} c l (ix : gindex S) d :
  index_get d (index_put c l ix) = if String.eqb d c then Some l else index_get d ix.
Proof.
  induction ix as [|[k l'] ix IH]; simpl.
  - destruct (String.eqb_spec d c); reflexivity.
  - destruct (String.eqb_spec c k) as [->|Hn]; simpl.
    + destruct (String.eqb_spec d k); reflexivity.
    + rewrite IH. destruct (String.eqb_spec d k), (String.eqb_spec d c); subst; try reflexivity. contradiction.
Qed.

(** has the rule this category and number of arguments? *)
Definition has_key {S} (c : string) (n : nat) (r : grule S) : bool :=
  String.eqb (k_pred (g_ante r)) c && Nat.eqb (length (k_args (g_ante r))) n.

Lemma find_rules_add {S} (ix : gindex S) r c n :
  find_rules (add_rule ix r) c n = find_rules ix c n ++ (if has_key c n r then create_rule_variants r else []).
Proof.
  unfold add_rule, find_rules, has_key. rewrite index_get_put, (String.eqb_sym c).
  destruct (String.eqb_spec (k_pred (g_ante r)) c) as [<-|Hn]; simpl.
  - rewrite counts_get_put, (Nat.eqb_sym n). destruct (Nat.eqb_spec (length (k_args (g_ante r))) n) as [<-|Hn].
    + destruct (index_get (k_pred (g_ante r)) ix) as [l|]; simpl; [|reflexivity].
      destruct (counts_get _ l); reflexivity.
    + rewrite app_nil_r. destruct (index_get (k_pred (g_ante r)) ix) as [l|]; reflexivity.
  - now rewrite app_nil_r.
Qed.

Lemma find_rules_fold {S} (rules : list (grule S)) : forall ix c n,
  find_rules (fold_left add_rule rules ix) c n = find_rules ix c n ++ flat_map create_rule_variants (filter (has_key c n) rules).
Proof.
  induction rules as [|r rules IH]; intros ix c n; simpl; [now rewrite app_nil_r|].
  rewrite IH, find_rules_add, <- app_assoc. f_equal. destruct (has_key c n r); reflexivity.
Qed.

Lemma find_rules_spec {S} (rules : list (grule S)) c n :
  find_rules (grammar_rules rules) c n = flat_map create_rule_variants (filter (has_key c n) rules).
Proof. unfold grammar_rules. now rewrite find_rules_fold. Qed.

Lemma variant_key {S} (r0 r : grule S) c n : rule_variant r0 r -> has_key c n r = has_key c n r0.
Proof. intros (E & _). unfold has_key. now rewrite E. Qed.

Lemma in_find_rules {S} (rules : list (grule S)) c n r :
  In r (find_rules (grammar_rules rules) c n) <->
  in_grammar rules r /\ k_pred (g_ante r) = c /\ length (k_args (g_ante r)) = n.
Proof.
  rewrite find_rules_spec, in_flat_map. unfold in_grammar. split.
  - intros (r0 & H0 & Hr). apply filter_In in H0 as [H0 Hk]. apply (proj1 (variants_spec r0)) in Hr.
    rewrite <- (variant_key _ _ _ _ Hr) in Hk. unfold has_key in Hk.
    rewrite andb_true_iff, String.eqb_eq, Nat.eqb_eq in Hk. split; [exists r0; auto|exact Hk].
  - intros ((r0 & H0 & Hr) & Hc & Hn). exists r0. split; [|now apply (proj1 (variants_spec r0))].
    apply filter_In. split; [exact H0|]. rewrite <- (variant_key _ _ _ _ Hr). unfold has_key.
    now rewrite Hc, Hn, String.eqb_refl, Nat.eqb_refl.
Qed.
