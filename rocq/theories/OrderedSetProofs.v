From Coq Require Import ZArith String List Bool Lia Arith Sorted.
From Verif Require Import Py PyFacts Effects SimpleDataSource.
Import ListNotations.
Local Open Scope list_scope.

(** ** histories of an OrderedSet *)
Inductive os_op : Type := OsAdd (x : value) | OsDiscard (x : value) | OsClear.

(** the element [x] is in the set after the history (latest operation
    first): the last operation on an equal element, or clear, decides *)
Fixpoint present_rev (h : list os_op) (x : value) : bool :=
  match h with
  | [] => false
  | OsAdd y :: h' => py_eq y x || present_rev h' x
  | OsDiscard y :: h' => negb (py_eq y x) && present_rev h' x
  | OsClear :: _ => false
  end.
Definition present (h : list os_op) (x : value) : bool := present_rev (rev h) x.

Definition removes (o : os_op) (x : value) : bool :=
  match o with OsAdd _ => false | OsDiscard y => py_eq y x | OsClear => true end.

(** operation [i] inserted [x], which was not present, and since then it was
    not removed *)
Definition live (h : list os_op) (i : nat) (x : value) : Prop :=
  nth_error h i = Some (OsAdd x) /\ present (firstn i h) x = false /\
  forall j o, i < j -> nth_error h j = Some o -> removes o x = false.

Definition os_do (s : oset) (o : os_op) : oset :=
  match o with OsAdd x => os_add x s | OsDiscard x => os_discard x s | OsClear => os_clear s end.
Definition os_run (h : list os_op) : oset := fold_left os_do h [].

Lemma os_run_snoc h o : os_run (h ++ [o]) = os_do (os_run h) o.
Proof. unfold os_run. now rewrite fold_left_app. Qed.
Lemma present_snoc h o x : present (h ++ [o]) x =
  match o with OsAdd y => py_eq y x || present h x | OsDiscard y => negb (py_eq y x) && present h x | OsClear => false end.
Proof. unfold present. rewrite rev_app_distr. destruct o; reflexivity. Qed.

Lemma py_eq_cong a b c : py_eq a b = true -> py_eq a c = py_eq b c.
Proof.
  intros H. destruct (py_eq a c) eqn:E1, (py_eq b c) eqn:E2; auto.
  - rewrite (py_eq_trans b a c) in E2; [discriminate| |assumption]. now rewrite py_eq_sym.
  - rewrite (py_eq_trans a b c) in E1; auto.
Qed.

Lemma contains_spec h x : os_contains x (os_run h) = present h x.
Proof.
  induction h as [|o h IH] using rev_ind; [reflexivity|]. rewrite os_run_snoc, present_snoc. destruct o as [y|y|]; simpl; auto.
  - unfold os_add. destruct (os_contains y (os_run h)) eqn:E.
    + rewrite IH. destruct (py_eq y x) eqn:Ex; auto. simpl. rewrite <- IH. unfold os_contains in *.
      apply existsb_exists in E as (z & Hz & Ez). apply existsb_exists. exists z. split; auto. eapply py_eq_trans; eauto.
    + unfold os_contains in *. rewrite existsb_app, IH. simpl. rewrite orb_false_r. apply orb_comm.
  - unfold os_discard, os_contains in *. rewrite <- IH. clear IH.
    induction (os_run h) as [|z s IHs]; simpl; [now rewrite andb_false_r|].
    destruct (py_eq z y) eqn:Ez; simpl.
    + rewrite IHs. destruct (py_eq y x) eqn:Ey; simpl; auto.
      rewrite (py_eq_cong z y x Ez), Ey. reflexivity.
    + rewrite IHs. destruct (py_eq y x) eqn:Ey; simpl.
      * destruct (py_eq z x) eqn:Ezx; auto. rewrite (py_eq_trans z x y) in Ez; auto. now rewrite py_eq_sym.
      * reflexivity.
Qed.

Lemma live_bound h i x : live h i x -> i < length h.
Proof. intros [H _]. apply nth_error_Some. congruence. Qed.

Lemma live_snoc h o i x : i < length h -> live (h ++ [o]) i x <-> live h i x /\ removes o x = false.
Proof.
  intros Hi. unfold live. rewrite nth_error_app1, firstn_app by auto.
  replace (i - length h) with 0 by lia. simpl. rewrite app_nil_r. split.
  - intros (H1 & H2 & H3). repeat split; auto.
    + intros j o' Hj Ho. apply (H3 j o' Hj). rewrite nth_error_app1; auto. apply nth_error_Some. congruence.
    + apply (H3 (length h) o Hi). rewrite nth_error_app2 by lia. now rewrite Nat.sub_diag.
  - intros ((H1 & H2 & H3) & H4). repeat split; auto. intros j o' Hj Ho.
    destruct (Nat.lt_ge_cases j (length h)).
    + rewrite nth_error_app1 in Ho by auto. eauto.
    + rewrite nth_error_app2 in Ho by auto. destruct (j - length h) as [|k]; simpl in Ho; [congruence|].
      destruct k; discriminate.
Qed.
Lemma live_last h o x : live (h ++ [o]) (length h) x <-> o = OsAdd x /\ present h x = false.
Proof.
  unfold live. rewrite nth_error_app2, Nat.sub_diag by auto. simpl.
  rewrite firstn_app, firstn_all, Nat.sub_diag. simpl. rewrite app_nil_r. split.
  - intros (H1 & H2 & _). split; congruence.
  - intros (-> & H). repeat split; auto. intros j o Hj Ho. assert (j < length (h ++ [OsAdd x])) by (apply nth_error_Some; congruence).
    rewrite app_length in H0. simpl in H0. lia.
Qed.

Lemma sorted_filter {A} (f : A -> nat) (g : A -> bool) l :
  StronglySorted lt (map f l) -> StronglySorted lt (map f (filter g l)).
Proof.
  induction l as [|a l IH]; simpl; auto. intros H. apply StronglySorted_inv in H as [H1 H2].
  destruct (g a); simpl; auto. constructor; auto. rewrite Forall_forall in *. intros x Hx. apply H2.
  apply in_map_iff in Hx as (y & <- & Hy). apply in_map. apply filter_In in Hy. tauto.
Qed.
Lemma sorted_app_one l n : StronglySorted lt l -> Forall (fun i => i < n) l -> StronglySorted lt (l ++ [n]).
Proof.
  induction l as [|a l IH]; simpl; intros Hs Hf; [repeat constructor|].
  apply StronglySorted_inv in Hs as [H1 H2]. inversion Hf; subst. constructor; auto. apply Forall_app; auto.
Qed.

Lemma os_items h : exists P : list (nat * value),
  map snd P = os_run h /\ StronglySorted lt (map fst P) /\ forall i x, In (i, x) P <-> live h i x.
Proof.
  induction h as [|o h (P & H1 & H2 & H3)] using rev_ind.
  { exists []. split; [reflexivity|]. split; [constructor|]. intros i x. split; [intros []|]. intros [H _]. now destruct i. }
  assert (Hlt : forall i x, In (i, x) P -> i < length h) by (intros i x H; eapply live_bound, H3, H).
  assert (Hb : forall i x, live (h ++ [o]) i x -> i < length h \/ i = length h).
  { intros i x Hl. apply live_bound in Hl. rewrite app_length in Hl. simpl in Hl. lia. }
  rewrite os_run_snoc. destruct o as [y|y|]; simpl.
  - unfold os_add. rewrite contains_spec. destruct (present h y) eqn:E.
    + exists P. split; [auto|split; [auto|]]. intros i x. split.
      * intros Hin. apply live_snoc; eauto. rewrite <- H3. auto.
      * intros Hl. destruct (Hb _ _ Hl) as [Hi| ->].
        -- apply H3. now apply live_snoc in Hl.
        -- apply live_last in Hl as [[= ->] Hp]. congruence.
    + exists (P ++ [(length h, y)]). rewrite !map_app, H1. simpl. split; [reflexivity|split; [|intros i x; split]].
      * apply sorted_app_one; auto. apply Forall_forall. intros i Hi. apply in_map_iff in Hi as ([i' x] & <- & Hin). eauto.
      * rewrite in_app_iff. intros [Hin|[[= <- <-]|[]]].
        -- apply live_snoc; eauto. rewrite <- H3. auto.
        -- now apply live_last.
      * rewrite in_app_iff. intros Hl. destruct (Hb _ _ Hl) as [Hi| ->].
        -- left. apply H3. now apply live_snoc in Hl.
        -- apply live_last in Hl as [[= ->] Hp]. right. now left.
  - exists (filter (fun p => negb (py_eq (snd p) y)) P). split; [|split; [|intros i x; split]].
    + rewrite <- H1. unfold os_discard. clear. induction P as [|[i x] P IH]; simpl; auto.
      destruct (py_eq x y); simpl; auto. now rewrite IH.
    + now apply sorted_filter.
    + rewrite filter_In. simpl. intros [Hin Hne]. apply live_snoc; eauto. split; [now apply H3|].
      simpl. rewrite py_eq_sym. now apply negb_true_iff.
    + intros Hl. rewrite filter_In. simpl. destruct (Hb _ _ Hl) as [Hi| ->].
      * apply live_snoc in Hl as [Hl Hr]; auto. split; [now apply H3|]. simpl in Hr. rewrite py_eq_sym, Hr. auto.
      * apply live_last in Hl as [? _]. discriminate.
  - exists []. split; [reflexivity|]. split; [constructor|]. intros i x. split; [intros []|]. intros Hl.
    destruct (Hb _ _ Hl) as [Hi| ->].
    + apply live_snoc in Hl as [_ Hr]; auto. discriminate.
    + apply live_last in Hl as [? _]. discriminate.
Qed.
