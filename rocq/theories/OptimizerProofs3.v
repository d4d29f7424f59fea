(** * Isolating independent parts keeps the atoms *)

From Coq Require Import ZArith String List Bool Permutation Lia Arith.
From Verif Require Import Py PyFacts Effects Atoms AtomsFacts Earley Composer Optimizer OptimizerSpec OptimizerProofs OptimizerProofs2.
Import ListNotations.
Local Open Scope nat_scope.
Local Open Scope string_scope.
Local Open Scope list_scope.

Definition vars_of (l : list value) (x : string) : Prop := exists a, In a l /\ In x (atom_variables a).
Definition batch_ok (excluded : list string) (b : batch) : Prop :=
  (forall x, In x (b_variables b) <-> vars_of (b_atoms b) x /\ ~ In x excluded) /\
  b_atoms b <> [] /\ connected excluded (b_atoms b).
Definition disjoint (b b' : batch) : Prop := forall x, In x (b_variables b) -> ~ In x (b_variables b').
Fixpoint apart (l : list batch) : Prop :=
  match l with
  | [] => True
  | b :: t => (forall b', In b' t -> disjoint b b') /\ apart t
  end.
Definition all_atoms (l : list batch) : list value := flat_map b_atoms l.

Lemma share_spec a b : share a b = true <-> exists x, In x a /\ In x b.
Proof.
  unfold share. rewrite existsb_exists. split; intros (x & Hx & H); exists x; split; auto; now apply name_in_In.
Qed.
Lemma share_false a b : share a b = false <-> forall x, In x a -> ~ In x b.
Proof.
  split.
  - intros H x Ha Hb. assert (share a b = true) by (apply share_spec; eauto). congruence.
  - intros H. destruct (share a b) eqn:E; auto. apply share_spec in E as (x & Ha & Hb). now apply H in Ha.
Qed.

Lemma vars_of_app l m x : vars_of (l ++ m) x <-> vars_of l x \/ vars_of m x.
Proof.
  unfold vars_of. split.
  - intros (a & Ha & Hx). rewrite in_app_iff in Ha. destruct Ha; eauto.
  - intros [(a & Ha & Hx)|(a & Ha & Hx)]; exists a; rewrite in_app_iff; auto.
Qed.

Lemma linked_sym ex a b : linked ex a b -> linked ex b a.
Proof. intros (x & Ha & Hb & Hx). exists x. auto. Qed.
Lemma path_mono ex l m a b : (forall x, In x l -> In x m) -> path ex l a b -> path ex m a b.
Proof. intros Hs. induction 1; [constructor|]. econstructor; eauto. Qed.
Lemma path_trans ex l a b c : path ex l a b -> path ex l b c -> path ex l a c.
Proof. induction 1; auto. intros H'. econstructor; eauto. Qed.

Lemma connected_app ex l m a b : connected ex l -> connected ex m -> In a l -> In b m -> linked ex a b ->
  connected ex (l ++ m).
Proof.
  intros Hl Hm Ha Hb Hab x y Hx Hy. rewrite in_app_iff in Hx, Hy.
  assert (Ml : forall u v, In u l -> In v l -> path ex (l ++ m) u v).
  { intros u v Hu Hv. eapply path_mono; [|apply (Hl u v Hu Hv)]. intros; rewrite in_app_iff; auto. }
  assert (Mm : forall u v, In u m -> In v m -> path ex (l ++ m) u v).
  { intros u v Hu Hv. eapply path_mono; [|apply (Hm u v Hu Hv)]. intros; rewrite in_app_iff; auto. }
  destruct Hx as [Hx|Hx], Hy as [Hy|Hy]; auto.
  - eapply path_trans; [apply (Ml x a); auto|]. eapply path_step; [|exact Hab|auto]. rewrite in_app_iff; auto.
  - eapply path_trans; [apply (Mm x b); auto|]. eapply path_step; [|apply linked_sym, Hab|auto]. rewrite in_app_iff; auto.
Qed.

Lemma add_batch_perm b c : Permutation (all_atoms (add_batch b c)) (all_atoms c ++ b_atoms b).
Proof.
  induction c as [|f c IH]; cbn [add_batch].
  - cbn. rewrite app_nil_r. apply Permutation_refl.
  - destruct (share (b_variables b) (b_variables f)); unfold all_atoms in *; cbn [flat_map b_atoms].
    + rewrite <- !app_assoc. apply Permutation_app_head, Permutation_app_comm.
    + rewrite <- app_assoc. now apply Permutation_app_head.
Qed.

Lemma add_batch_ok ex b c : batch_ok ex b -> (forall f, In f c -> batch_ok ex f) ->
  forall f, In f (add_batch b c) -> batch_ok ex f.
Proof.
  intros Hb. induction c as [|g c IH]; cbn [add_batch]; intros Hc f Hf.
  - destruct Hf as [<-|[]]; auto.
  - destruct (share (b_variables b) (b_variables g)) eqn:E.
    + destruct Hf as [<-|Hf]; [|apply Hc; now right].
      destruct (Hc g (or_introl eq_refl)) as (Vg & Ng & Cg). destruct Hb as (Vb & Nb & Cb).
      split; [|split]; cbn [b_atoms b_variables].
      * intros x. rewrite in_app_iff, vars_of_app, (Vg x), (Vb x). tauto.
      * destruct (b_atoms g); [congruence|discriminate].
      * apply share_spec in E as (x & Hxb & Hxg).
        apply Vb in Hxb as ((a & Ha & Hxa) & Hex). apply Vg in Hxg as ((a' & Ha' & Hxa') & _).
        apply (connected_app ex _ _ a' a); auto. exists x.
        repeat split; auto; now apply mentions_variables.
    + destruct Hf as [<-|Hf]; [apply Hc; now left|]. apply IH; auto. intros f' Hf'. apply Hc. now right.
Qed.

Lemma add_batch_length b c : length (add_batch b c) = length c \/
  (add_batch b c = c ++ [b] /\ forall f, In f c -> disjoint f b).
Proof.
  induction c as [|g c IH]; cbn [add_batch].
  - right. split; auto. intros f [].
  - destruct (share (b_variables b) (b_variables g)) eqn:E; [now left|].
    destruct IH as [IH|(IH & D)]; [left; cbn; now rewrite IH|right].
    rewrite IH. split; auto. intros f [<-|Hf]; auto. intros x Hx Hb.
    rewrite share_false in E. now apply (E x).
Qed.

Lemma apart_snoc l b : apart l -> (forall f, In f l -> disjoint f b) -> apart (l ++ [b]).
Proof.
  induction l as [|f l IH]; cbn [apart app]; intros H D.
  - split; auto. intros b' [].
  - destruct H as [H1 H2]. split.
    + intros b' Hb'. rewrite in_app_iff in Hb'. destruct Hb' as [Hb'|[<-|[]]]; auto. apply D. now left.
    + apply IH; auto. intros f' Hf'. apply D. now right.
Qed.

Section Merge.
  Variable ex : list string.
  Notation add := (fun new_batches b => add_batch b new_batches).

  Lemma merge_perm c : forall acc, Permutation (all_atoms (fold_left add c acc)) (all_atoms acc ++ all_atoms c).
  Proof.
    induction c as [|b c IH]; intros acc; cbn [fold_left].
    - cbn. rewrite app_nil_r. apply Permutation_refl.
    - eapply perm_trans; [apply IH|]. unfold all_atoms at 4. cbn [flat_map]. rewrite app_assoc.
      apply Permutation_app_tail, add_batch_perm.
  Qed.
  Lemma merge_ok c : forall acc, (forall f, In f acc -> batch_ok ex f) -> (forall f, In f c -> batch_ok ex f) ->
    forall f, In f (fold_left add c acc) -> batch_ok ex f.
  Proof.
    induction c as [|b c IH]; intros acc Ha Hc f; cbn [fold_left]; auto.
    apply IH; [|intros f' Hf'; apply Hc; now right]. apply add_batch_ok; auto. apply Hc. now left.
  Qed.
  Lemma merge_length c : forall acc, length (fold_left add c acc) <= length acc + length c.
  Proof.
    induction c as [|b c IH]; intros acc; cbn [fold_left length]; [lia|].
    specialize (IH (add_batch b acc)). destruct (add_batch_length b acc) as [H|(H & _)]; rewrite H in IH.
    - lia.
    - rewrite H. rewrite app_length in IH. cbn [length] in IH. lia.
  Qed.
  Lemma merge_same c : forall acc, apart acc -> length (fold_left add c acc) = length acc + length c -> apart (acc ++ c).
  Proof.
    induction c as [|b c IH]; intros acc Ha H; cbn [fold_left length] in H; [now rewrite app_nil_r|].
    pose proof (merge_length c (add_batch b acc)) as Hl.
    destruct (add_batch_length b acc) as [E|(E & D)].
    - rewrite E in Hl. lia.
    - rewrite E in H. replace (acc ++ b :: c) with ((acc ++ [b]) ++ c) by now rewrite <- app_assoc.
      apply IH; [now apply apart_snoc|]. rewrite H, app_length. cbn [length]. lia.
  Qed.

  Lemma stabilize_spec n : forall c, length c < n -> (forall f, In f c -> batch_ok ex f) ->
    exists r, stabilize n c = Ok r /\ Permutation (all_atoms c) (all_atoms r) /\
      (forall f, In f r -> batch_ok ex f) /\ apart r.
  Proof.
    induction n as [|n IH]; intros c Hn Hc; [lia|]. cbn [stabilize].
    destruct (Nat.eqb_spec (length (merge_batches c)) (length c)) as [E|E].
    - exists c. split; [reflexivity|]. split; [apply Permutation_refl|]. split; auto.
      apply (merge_same c []); [exact I|exact E].
    - pose proof (merge_length c []) as Hl. fold (merge_batches c) in Hl. cbn [length] in Hl.
      destruct (IH (merge_batches c)) as (r & Hr & Hp & Ho & Ha); [lia|apply merge_ok; auto; intros f []|].
      exists r. split; auto. split; auto. eapply perm_trans; [|exact Hp]. symmetry. apply (merge_perm c []).
  Qed.
End Merge.

Lemma first_batches_ok ex atoms f : In f (first_batches atoms ex) -> batch_ok ex f.
Proof.
  unfold first_batches. rewrite in_map_iff. intros (a & <- & Ha). split; [|split]; cbn [b_atoms b_variables].
  - intros x. rewrite filter_In, negb_true_iff. split.
    + intros [Hx E]. split; [exists a; split; [now left|auto]|]. intros Hi. apply name_in_In in Hi. congruence.
    + intros [(a' & [<-|[]] & Hx) Hi]. split; auto. destruct (name_in x ex) eqn:E; auto. apply name_in_In in E. contradiction.
  - discriminate.
  - intros u v [<-|[]] [<-|[]]. constructor.
Qed.
Lemma first_batches_atoms ex atoms : all_atoms (first_batches atoms ex) = atoms.
Proof. unfold all_atoms, first_batches. induction atoms as [|a l IH]; cbn; [reflexivity|]. now rewrite IH. Qed.

(** ** the order of the atoms *)

Definition picked (l : list value) (atom : value) : list value :=
  match find (fun b => py_eq b atom) l with Some b => [b] | None => [] end.

Lemma picked_In l atom x : In x (picked l atom) -> In x l /\ py_eq x atom = true.
Proof.
  unfold picked. destruct (find _ l) eqn:E; [|intros []]. intros [<-|[]]. apply find_some in E. exact E.
Qed.
Lemma picked_some l atom : In atom l -> exists x, In x (picked l atom) /\ py_eq x atom = true.
Proof.
  intros H. unfold picked. destruct (find _ l) eqn:E.
  - exists v. split; [now left|]. now apply find_some in E.
  - exfalso. pose proof (find_none _ _ E atom H) as F. cbn in F. rewrite py_eq_refl in F. discriminate.
Qed.

Lemma restored_In atoms l x : In x (flat_map (picked l) atoms) -> In x l.
Proof. rewrite in_flat_map. intros (a & _ & H). now apply picked_In in H. Qed.
Lemma restored_all atoms l a : (forall x, In x l -> In x atoms) -> In a l ->
  exists a', In a' (flat_map (picked l) atoms) /\ py_eq a' a = true.
Proof.
  intros Hs Ha. destruct (picked_some l a Ha) as (x & Hx & E). exists x. split; auto.
  apply in_flat_map. eauto.
Qed.
Lemma restored_length l atoms : length (flat_map (picked l) atoms) <= length atoms.
Proof.
  induction atoms as [|a atoms IH]; cbn [flat_map length]; [lia|]. rewrite app_length.
  assert (length (picked l a) <= 1) by (unfold picked; destruct (find _ l); cbn; lia). lia.
Qed.

Lemma all_different_eq l x y : all_different l -> In x l -> In y l -> py_eq x y = true -> x = y.
Proof.
  induction l as [|a l IH]; intros Hd Hx Hy E; [destruct Hx|]. destruct Hd as [H1 H2].
  destruct Hx as [<-|Hx], Hy as [<-|Hy]; auto.
  - rewrite (H1 y Hy) in E. discriminate.
  - rewrite py_eq_sym, (H1 x Hx) in E. discriminate.
Qed.
Lemma all_different_NoDup l : all_different l -> NoDup l.
Proof.
  induction l as [|a l IH]; intros H; [constructor|]. destruct H as [H1 H2]. constructor; auto.
  intros Ha. specialize (H1 a Ha). rewrite py_eq_refl in H1. discriminate.
Qed.

Lemma restored_filter atoms l : all_different atoms -> (forall x, In x l -> In x atoms) ->
  forall l', (forall x, In x l' -> In x atoms) ->
  subsequence (flat_map (picked l) l') l' /\
  forall x, In x l' -> In x l -> In x (flat_map (picked l) l').
Proof.
  intros Hd Hl. induction l' as [|a l' IH]; intros Hl'; cbn [flat_map]; [split; [constructor|intros x []]|].
  destruct IH as [IH1 IH2]; [intros; apply Hl'; now right|].
  assert (Hp : picked l a = [] /\ ~ In a l \/ picked l a = [a]).
  { unfold picked. destruct (find _ l) as [b|] eqn:E.
    - right. apply find_some in E as [Hb E]. f_equal. apply (all_different_eq atoms); auto. apply Hl'. now left.
    - left. split; auto. intros Ha. pose proof (find_none _ _ E a Ha) as F. cbn in F. rewrite py_eq_refl in F. discriminate. }
  destruct Hp as [[-> Hn]| ->]; cbn [app].
  - split; [now constructor|]. intros x [<-|Hx] Hi; [contradiction|auto].
  - split; [now constructor|]. intros x [<-|Hx] Hi; [now left|right; auto].
Qed.

Lemma subsequence_In g l x : subsequence g l -> In x g -> In x l.
Proof. induction 1; intros Hx; auto; [destruct Hx; [now left|right; auto]|right; auto]. Qed.
Lemma subsequence_NoDup g l : subsequence g l -> NoDup l -> NoDup g.
Proof.
  induction 1; intros Hn; auto; inversion Hn; subst; auto. constructor; auto.
  intros Hi. eapply subsequence_In in Hi; eauto.
Qed.
Lemma subsequence_different g l : subsequence g l -> all_different l -> all_different g.
Proof.
  induction 1; intros Hd; auto; destruct Hd as [H1 H2]; auto. split; auto.
  intros x Hx. apply H1. eapply subsequence_In; eauto.
Qed.
Lemma subsequence_refl l : subsequence l l.
Proof. induction l; constructor; auto. Qed.

Lemma restored_perm atoms l : all_different atoms -> (forall x, In x l -> In x atoms) -> NoDup l ->
  Permutation l (flat_map (picked l) atoms).
Proof.
  intros Hd Hl Hn. destruct (restored_filter atoms l Hd Hl atoms) as [Hs Hi]; auto.
  apply NoDup_Permutation; auto.
  - eapply subsequence_NoDup; eauto. now apply all_different_NoDup.
  - intros x. split; [intros Hx; apply Hi; auto|]. apply restored_In.
Qed.

(** ** the batches *)

Definition raw_batches (atoms : list value) (ex : list string) (raw : list batch) : Prop :=
  collect_batches atoms ex = Ok (map (restore_atom_order atoms) raw) /\
  Permutation atoms (all_atoms raw) /\ (forall f, In f raw -> batch_ok ex f) /\ apart raw.

Lemma collect_batches_raw atoms ex : exists raw, raw_batches atoms ex raw.
Proof.
  unfold raw_batches, collect_batches.
  destruct (stabilize_spec ex (S (length atoms)) (first_batches atoms ex)) as (r & Hr & Hp & Ho & Ha).
  - unfold first_batches. rewrite map_length. lia.
  - apply first_batches_ok.
  - exists r. rewrite Hr. cbn [obind]. rewrite first_batches_atoms in Hp. auto.
Qed.

Lemma in_all_atoms raw b a : In b raw -> In a (b_atoms b) -> In a (all_atoms raw).
Proof. intros Hb Ha. apply in_flat_map. eauto. Qed.

(** ** it always ends *)
Lemma isolate_from_total n : forall atoms roots, length atoms <= n -> exists r, isolate_from n atoms roots = Ok r.
Proof.
  induction n as [|n IH]; intros [|head rest] roots Hn; cbn [isolate_from]; eauto; [cbn in Hn; lia|].
  destruct (collect_batches_raw rest (atom_variables head)) as (raw & -> & _ & _). cbn [obind].
  assert (G : forall bs, (forall b, In b bs -> length (b_atoms b) <= n) -> exists parts,
    omap (fun b => if share (b_variables b) roots then Ok (b_atoms b)
            else obind (isolate_from n (b_atoms b) []) (fun recursed => Ok [VTuple [VStr "scoped"; VList recursed]])) bs = Ok parts).
  { induction bs as [|b bs IHb]; intros Hb; cbn [omap]; eauto.
    destruct IHb as (parts & Hp); [intros; apply Hb; now right|]. rewrite Hp.
    destruct (share (b_variables b) roots); cbn [obind]; eauto.
    destruct (IH (b_atoms b) []) as (r & ->); [apply Hb; now left|]. cbn [obind]. eauto. }
  destruct (G (map (restore_atom_order rest) raw)) as (parts & ->).
  - intros b Hb. apply in_map_iff in Hb as (f & <- & _). cbn [b_atoms restore_atom_order].
    pose proof (restored_length (b_atoms f) rest). cbn in Hn. unfold picked in H. lia.
  - cbn [obind]. eauto.
Qed.
Lemma isolate_total atoms roots : exists r, isolate atoms roots = Ok r.
Proof. apply isolate_from_total. apply le_n. Qed.

(** ** the atoms without the scopes *)

Definition keeps (atoms m : list value) : Prop :=
  (forall a, In a m -> In a atoms) /\ (forall a, In a atoms -> exists a', In a' m /\ py_eq a' a = true).
Lemma keeps_refl l : keeps l l.
Proof. split; auto. intros a Ha. exists a. split; auto. apply py_eq_refl. Qed.
Lemma keeps_trans l m k : keeps l m -> keeps m k -> keeps l k.
Proof.
  intros [A B] [C D]. split; auto. intros a Ha. destruct (B a Ha) as (b & Hb & E1). destruct (D b Hb) as (c & Hc & E2).
  exists c. split; auto. eapply py_eq_trans; eauto.
Qed.
Lemma keeps_app l l' m m' : keeps l m -> keeps l' m' -> keeps (l ++ l') (m ++ m').
Proof.
  intros [A B] [C D]. split.
  - intros a. rewrite !in_app_iff. intros [H|H]; auto.
  - intros a. rewrite in_app_iff. intros [H|H]; [destruct (B a H) as (x & Hx & E)|destruct (D a H) as (x & Hx & E)];
      exists x; rewrite in_app_iff; auto.
Qed.
Lemma keeps_perm l m k : Permutation l m -> keeps m k -> keeps l k.
Proof.
  intros Hp [A B]. split.
  - intros a Ha. apply (Permutation_in _ (Permutation_sym Hp)). auto.
  - intros a Ha. apply B. now apply (Permutation_in _ Hp).
Qed.

Lemma unscoped_app l l' m m' : unscoped l m -> unscoped l' m' -> unscoped (l ++ l') (m ++ m').
Proof.
  induction 1; intros H'; cbn [app]; auto; [constructor; auto|]. rewrite <- app_assoc. constructor; auto.
Qed.
Lemma unscoped_refl l : unscoped l l.
Proof. induction l; constructor; auto. Qed.

Lemma batch_NoDup raw b : NoDup (all_atoms raw) -> In b raw -> NoDup (b_atoms b).
Proof.
  induction raw as [|f raw IH]; intros Hn Hb; [destruct Hb|]. unfold all_atoms in Hn. cbn [flat_map] in Hn.
  destruct Hb as [<-|Hb].
  - clear - Hn. induction (b_atoms f) as [|x l IHl]; [constructor|]. inversion Hn; subst. constructor; auto.
    intros Hx. apply H1. apply in_app_iff. auto.
  - apply IH; auto. clear - Hn. induction (b_atoms f) as [|x l IHl]; auto. inversion Hn; auto.
Qed.

Lemma isolate_from_unscoped n : forall atoms roots r, isolate_from n atoms roots = Ok r ->
  exists m, unscoped r m /\ keeps atoms m /\ (all_different atoms -> Permutation atoms m) /\ hd_error r = hd_error atoms.
Proof.
  induction n as [|n IH]; intros [|head rest] roots r H; cbn [isolate_from] in H; try discriminate;
    try (inversion H; subst; exists []; split; [constructor|split; [apply keeps_refl|split; [intros; constructor|reflexivity]]]; fail).
  destruct (collect_batches_raw rest (atom_variables head)) as (raw & Hraw & Hp & _ & _).
  rewrite Hraw in H. cbn [obind] in H.
  apply obind_ok in H as (parts & Hparts & H). inversion H; subst. clear H.
  apply omap_ok in Hparts.
  set (restored := fun b : batch => flat_map (picked (b_atoms b)) rest).
  assert (G : forall bs parts, (forall b, In b bs -> In b raw) ->
    Forall2 (fun x y => (if share (b_variables x) roots then Ok (b_atoms x)
       else obind (isolate_from n (b_atoms x) []) (fun recursed => Ok [VTuple [VStr "scoped"; VList recursed]])) = Ok y)
      (map (restore_atom_order rest) bs) parts ->
    exists m, unscoped (concat parts) m /\ keeps (all_atoms bs) m /\ (all_different rest -> Permutation (all_atoms bs) m)).
  { clear parts Hparts. induction bs as [|b bs IHb]; intros parts Hb HF; cbn [map] in HF; inversion HF as [|? y ? parts' Hy HF']; subst.
    - exists []. split; [constructor|]. split; [apply keeps_refl|constructor].
    - destruct (IHb parts') as (m & Um & Km & Pm); auto; [intros; apply Hb; now right|]. clear HF HF' IHb.
      cbn [b_variables b_atoms restore_atom_order] in Hy. fold (picked (b_atoms b)) in Hy.
      change (flat_map (fun atom => match find (fun batch_atom => py_eq batch_atom atom) (b_atoms b) with
                                    | Some batch_atom => [batch_atom] | None => [] end) rest) with (restored b) in Hy.
      assert (Hin : forall x, In x (b_atoms b) -> In x rest).
      { intros x Hx. apply (Permutation_in _ (Permutation_sym Hp)). eapply in_all_atoms; eauto. apply Hb. now left. }
      assert (Kb : keeps (b_atoms b) (restored b)).
      { split; [intros a; apply restored_In|intros a Ha; now apply restored_all]. }
      assert (Pb : all_different rest -> Permutation (b_atoms b) (restored b)).
      { intros Hd. apply restored_perm; auto. apply (batch_NoDup raw); [|apply Hb; now left].
        eapply Permutation_NoDup; [exact Hp|]. now apply all_different_NoDup. }
      assert (S : exists m', unscoped y m' /\ keeps (b_atoms b) m' /\ (all_different rest -> Permutation (b_atoms b) m')).
      { destruct (share (b_variables b) roots).
        - inversion Hy; subst. exists (restored b). split; [apply unscoped_refl|]. auto.
        - apply obind_ok in Hy as (q & Hq & Hy). inversion Hy; subst.
          destruct (IH _ _ _ Hq) as (m' & Um' & Km' & Pm' & _). exists m'. split; [|split].
          + rewrite <- (app_nil_r m'). constructor; auto. constructor.
          + eapply keeps_trans; eauto.
          + intros Hd. eapply perm_trans; [now apply Pb|]. apply Pm'.
            destruct (restored_filter rest (b_atoms b) Hd Hin rest) as [Hs _]; auto.
            eapply subsequence_different; eauto. }
      destruct S as (m' & Um' & Km' & Pm'). exists (m' ++ m). unfold all_atoms in *. cbn [concat flat_map].
      split; [now apply unscoped_app|]. split; [now apply keeps_app|]. intros Hd. apply Permutation_app; auto. }
  destruct (G raw parts) as (m & Um & Km & Pm); auto.
  exists (head :: m). split; [now constructor|]. split; [|split; [|reflexivity]].
  - apply (keeps_app [head] rest [head] m); [apply keeps_refl|]. eapply keeps_perm; eauto.
  - intros [_ Hd]. constructor. eapply perm_trans; [exact Hp|]. auto.
Qed.

(** ** the groups *)

Lemma path_perm ex l m a b : Permutation l m -> path ex l a b -> path ex m a b.
Proof. intros Hp. apply path_mono. intros x. now apply Permutation_in. Qed.
Lemma connected_perm ex l m : Permutation l m -> connected ex l -> connected ex m.
Proof.
  intros Hp H a b Ha Hb. apply (path_perm ex l m); auto.
  apply H; eapply Permutation_in; try exact (Permutation_sym Hp); auto.
Qed.

Lemma apart_nth raw : apart raw -> forall i j b b', i <> j -> nth_error raw i = Some b -> nth_error raw j = Some b' ->
  forall x, In x (b_variables b) -> ~ In x (b_variables b').
Proof.
  induction raw as [|f raw IH]; intros Ha [|i] [|j] b b' Hij Hi Hj x Hx; try discriminate; try congruence.
  - cbn in Hi, Hj. injection Hi as <-. apply nth_error_In in Hj. destruct Ha as [Ha _]. now apply (Ha b').
  - cbn in Hi, Hj. injection Hj as <-. apply nth_error_In in Hi. destruct Ha as [Ha _]. intros F. now apply (Ha b Hi x).
  - cbn in Hi, Hj. destruct Ha as [_ Ha]. apply (IH Ha i j b b'); auto.
Qed.

Lemma nth_error_map_inv {A B} (f : A -> B) l i y : nth_error (map f l) i = Some y ->
  exists x, nth_error l i = Some x /\ y = f x.
Proof.
  revert i; induction l as [|a l IH]; intros [|i] H; cbn in H; try discriminate.
  - injection H as <-. exists a. auto.
  - destruct (IH i H) as (x & Hx & ->). exists x. auto.
Qed.

Lemma isolate_from_isolated n : forall atoms roots r, all_different atoms -> isolate_from n atoms roots = Ok r ->
  isolated roots atoms r.
Proof.
  induction n as [|n IH]; intros [|head rest] roots r Hd H; cbn [isolate_from] in H; try discriminate;
    try (inversion H; subst; constructor).
  destruct Hd as [_ Hd].
  destruct (collect_batches_raw rest (atom_variables head)) as (raw & Hraw & Hp & Ho & Hapart).
  rewrite Hraw in H. cbn [obind] in H.
  apply obind_ok in H as (parts & Hparts & H). inversion H; subst. clear H.
  apply omap_ok in Hparts.
  set (restored := fun b : batch => flat_map (picked (b_atoms b)) rest).
  assert (Hin : forall b x, In b raw -> In x (b_atoms b) -> In x rest).
  { intros b x Hb Hx. apply (Permutation_in _ (Permutation_sym Hp)). eapply in_all_atoms; eauto. }
  assert (Hpb : forall b, In b raw -> Permutation (b_atoms b) (restored b)).
  { intros b Hb. apply restored_perm; auto; [intros x; now apply Hin|]. apply (batch_NoDup raw); auto.
    eapply Permutation_NoDup; [exact Hp|]. now apply all_different_NoDup. }
  assert (Hsub : forall b, In b raw -> subsequence (restored b) rest).
  { intros b Hb. apply (restored_filter rest (b_atoms b)); auto. intros x; now apply Hin. }
  assert (Hvars : forall b, In b raw -> forall x, In x (b_variables b) <->
    (exists a, In a (restored b) /\ mentions x a) /\ ~ In x (atom_variables head)).
  { intros b Hb x. destruct (Ho b Hb) as (Hv & _). rewrite (Hv x). unfold vars_of.
    split; intros [(a & Ha & Hx) Hn]; (split; [|exact Hn]); exists a; (split; [|now apply mentions_variables]);
      eapply Permutation_in; try exact Ha; [|symmetry]; now apply Hpb. }
  apply iso_cons with (groups := map restored raw) (excluded := atom_variables head).
  - intros x. now rewrite mentions_variables.
  - eapply perm_trans; [exact Hp|]. clear - Hpb. induction raw as [|b raw IHr]; [constructor|].
    unfold all_atoms in *. cbn [flat_map map concat]. apply Permutation_app; [apply Hpb; now left|].
    apply IHr. intros; apply Hpb; now right.
  - intros g Hg. apply in_map_iff in Hg as (b & <- & Hb). split; [|split; [now apply Hsub|]].
    + destruct (Ho b Hb) as (_ & Hn & _). intros E. specialize (Hpb b Hb). rewrite E in Hpb.
      apply Permutation_sym, Permutation_nil in Hpb. contradiction.
    + apply (connected_perm _ (b_atoms b)); auto. now apply Ho.
  - intros i j g g' a a' Hij Hi Hj Ha Ha' (x & Hx & Hx' & Hn).
    apply nth_error_map_inv in Hi as (b & Hi & ->). apply nth_error_map_inv in Hj as (b' & Hj & ->).
    apply (apart_nth raw Hapart i j b b' Hij Hi Hj x); apply Hvars; eauto using nth_error_In.
  - assert (G : forall bs parts, (forall b, In b bs -> In b raw) ->
      Forall2 (fun x y => (if share (b_variables x) roots then Ok (b_atoms x)
         else obind (isolate_from n (b_atoms x) []) (fun recursed => Ok [VTuple [VStr "scoped"; VList recursed]])) = Ok y)
        (map (restore_atom_order rest) bs) parts ->
      isolated_groups roots (atom_variables head) (map restored bs) parts); [|now apply G].
    clear parts Hparts. induction bs as [|b bs IHb]; intros parts Hb HF; cbn [map] in HF |- *;
      inversion HF as [|? y ? parts' Hy HF']; subst; [constructor|].
    cbn [b_variables b_atoms restore_atom_order] in Hy.
    change (flat_map (fun atom => match find (fun batch_atom => py_eq batch_atom atom) (b_atoms b) with
                                    | Some batch_atom => [batch_atom] | None => [] end) rest) with (restored b) in Hy.
    assert (Hbr : In b raw) by (apply Hb; now left).
    specialize (IHb parts' (fun b' H' => Hb b' (or_intror H')) HF').
    destruct (share (b_variables b) roots) eqn:E.
    + inversion Hy; subst. apply share_spec in E as (x & Hx & Hr). apply (Hvars b Hbr) in Hx as [(a & Ha & Hx) Hn].
      econstructor; eauto.
    + apply obind_ok in Hy as (q & Hq & Hy). inversion Hy; subst. constructor; auto.
      * intros a x Ha Hx Hn Hr. rewrite share_false in E. apply (E x); auto. apply Hvars; eauto.
      * apply IH; auto. eapply subsequence_different; [apply Hsub|]; auto.
Qed.

(** ** equal atoms are multiplied *)

(** [copies (S n)] atoms come out when [S n] equal atoms without variables go in *)
Fixpoint copies (n : nat) : nat :=
  match n with
  | O => 0
  | S n' => S (n' * copies n')
  end.

Lemma add_batch_closed b c : b_variables b = [] -> add_batch b c = c ++ [b].
Proof. intros H. induction c as [|f c IH]; cbn [add_batch]; [reflexivity|]. rewrite H at 1. cbn [share existsb app]. now rewrite IH. Qed.
Lemma merge_closed c : forall acc, (forall b, In b c -> b_variables b = []) ->
  fold_left (fun new_batches b => add_batch b new_batches) c acc = acc ++ c.
Proof.
  induction c as [|b c IH]; intros acc H; cbn [fold_left]; [now rewrite app_nil_r|].
  rewrite IH by (intros; apply H; now right). rewrite add_batch_closed by (apply H; now left). now rewrite <- app_assoc.
Qed.

Section Copies.
  Variable a : value.
  Hypothesis closed : atom_variables a = [].

  Fixpoint blown (n : nat) : list value :=
    match n with
    | O => []
    | S n' => a :: repeat (VTuple [VStr "scoped"; VList (blown n')]) n'
    end.

  Lemma map_repeat {A B} (f : A -> B) x n : map f (repeat x n) = repeat (f x) n.
  Proof. induction n as [|n IH]; cbn; [reflexivity|]. now rewrite IH. Qed.

  Lemma picked_repeat n : flat_map (picked [a]) (repeat a n) = repeat a n.
  Proof.
    induction n as [|n IH]; [reflexivity|]. cbn [repeat flat_map]. rewrite IH. unfold picked. cbn [find].
    now rewrite py_eq_refl.
  Qed.

  Lemma collect_repeat n ex : collect_batches (repeat a n) ex = Ok (repeat (mkBatch (repeat a n) []) n).
  Proof.
    unfold collect_batches, first_batches. rewrite map_repeat, closed. cbn [filter stabilize].
    unfold merge_batches. rewrite merge_closed by (intros b Hb; apply repeat_spec in Hb; now subst).
    cbn [app]. rewrite Nat.eqb_refl. cbn [obind]. rewrite map_repeat. unfold restore_atom_order. cbn [b_atoms b_variables].
    change (fun atom : value => match find (fun batch_atom : value => py_eq batch_atom atom) [a] with
              | Some batch_atom => [batch_atom] | None => [] end) with (picked [a]).
    now rewrite picked_repeat.
  Qed.

  Lemma isolate_repeat n : forall roots, isolate_from n (repeat a n) roots = Ok (blown n).
  Proof.
    induction n as [|n IH]; intros roots; [reflexivity|]. cbn [repeat isolate_from]. rewrite collect_repeat. cbn [obind].
    assert (G : forall k, omap (fun b => if share (b_variables b) roots then Ok (b_atoms b)
            else obind (isolate_from n (b_atoms b) []) (fun recursed => Ok [VTuple [VStr "scoped"; VList recursed]]))
          (repeat (mkBatch (repeat a n) []) k) = Ok (repeat [VTuple [VStr "scoped"; VList (blown n)]] k)).
    { induction k as [|k IHk]; [reflexivity|]. cbn [repeat omap b_variables share existsb b_atoms]. rewrite IH.
      cbn [obind]. rewrite IHk. reflexivity. }
    rewrite G. cbn [obind blown]. f_equal. f_equal.
    generalize n at 2 4. intros k. induction k as [|k IHk]; [reflexivity|]. cbn [repeat concat app]. now rewrite IHk.
  Qed.

  Lemma repeat_app' (n m : nat) : repeat a n ++ repeat a m = repeat a (n + m).
  Proof. induction n; cbn; [reflexivity|]. now rewrite IHn. Qed.

  Lemma blown_copies n : unscoped (blown n) (repeat a (copies n)).
  Proof.
    induction n as [|n IH]; [constructor|]. cbn [blown copies repeat]. constructor.
    assert (G : forall k, unscoped (repeat (VTuple [VStr "scoped"; VList (blown n)]) k) (repeat a (k * copies n)));
      [|apply G].
    induction k as [|k IHk]; [constructor|]. cbn [repeat Nat.mul]. rewrite <- repeat_app'. now constructor.
  Qed.
End Copies.

Lemma copies_fact n : fact n <= copies (S n).
Proof.
  induction n as [|n IH]; [cbn; lia|]. cbn [copies fact] in *.
  apply Nat.le_trans with (S n * S (n * copies n)); [|lia].
  replace (fact n + n * fact n) with (S n * fact n) by lia. now apply Nat.mul_le_mono_l.
Qed.
