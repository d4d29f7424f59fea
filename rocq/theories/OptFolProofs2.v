(** * First-order queries, arranged in another order *)

From Coq Require Import ZArith String List Bool Lia Arith Permutation.
From Verif Require Import Py PyFacts DatalogSpec FolSpec FolProofs FolProofs2 OptFolSpec OptFolProofs.
Import ListNotations.
Local Open Scope nat_scope.
Local Open Scope string_scope.
Local Open Scope list_scope.

(** ** numbers *)

(** the value at the first place of [x] *)
Fixpoint pick (xs : list string) (row : list value) (x : string) : value :=
  match xs, row with
  | y :: xs', v :: row' => if string_dec x y then v else pick xs' row' x
  | _, _ => VNone
  end.
Lemma pick_map s xs x : In x xs -> pick xs (map s xs) x = s x.
Proof.
  induction xs as [|y xs IH]; [intros []|]. cbn [pick map]. destruct (string_dec x y) as [->|N]; auto.
  intros [E|H]; auto. congruence.
Qed.

Lemma NoDup_map_on {A B} (f : A -> B) l : (forall x y, In x l -> In y l -> f x = f y -> x = y) -> NoDup l -> NoDup (map f l).
Proof.
  intros Hi Hn. induction Hn as [|x l Hx Hn IH]; constructor.
  - intros F. apply in_map_iff in F as (y & E & Hy). apply Hx. rewrite (Hi x y); simpl; auto.
  - apply IH. intros; apply Hi; simpl; auto.
Qed.

Lemma number_same ext B q q' s n :
  (forall t, const_assignment t -> (all_hold ext B q t <-> all_hold ext B q' t)) ->
  (forall x, In x (binds q) <-> In x (binds q')) ->
  number ext B q s n -> number ext B q' s n.
Proof.
  intros Hh Hb (rows & Hn & <- & Hr). set (g := fun row => map (pick (binds q) row) (binds q')).
  assert (Hg : forall t, g (map t (binds q)) = map t (binds q')).
  { intros t. unfold g. apply map_ext_in. intros x Hx. apply pick_map. now apply Hb. }
  exists (map g rows). split; [|split; [apply map_length|]].
  - apply NoDup_map_on; auto. intros r1 r2 H1 H2 E.
    apply Hr in H1 as (t1 & _ & _ & _ & ->). apply Hr in H2 as (t2 & _ & _ & _ & ->). rewrite !Hg in E.
    apply map_ext_in. intros x Hx. apply Hb in Hx. clear - E Hx.
    induction (binds q') as [|y l IH]; [destruct Hx|]. injection E as E1 E2. destruct Hx as [<-|Hx]; auto.
  - intros row. rewrite in_map_iff. split.
    + intros (r0 & <- & H0). apply Hr in H0 as (t & T1 & T2 & T3 & ->). exists t. rewrite Hg, <- Hh by auto. auto.
    + intros (t & T1 & T2 & T3 & ->). exists (map t (binds q)). split; [apply Hg|]. apply Hr. exists t. rewrite Hh by auto. auto.
Qed.
Lemma number_iff ext B q q' s n :
  (forall t, const_assignment t -> (all_hold ext B q t <-> all_hold ext B q' t)) ->
  (forall x, In x (binds q) <-> In x (binds q')) ->
  (number ext B q s n <-> number ext B q' s n).
Proof.
  intros H1 H2. split; apply number_same; auto; intros; symmetry; auto.
Qed.

(** ** arranged queries *)

Section Arranged.
  Variable moved : string -> bool.
  Notation is_moved := (is_moved moved).
  Notation late := (fun f => negb (is_moved f)).

  (** the moved atoms first, in any order, also in the nested queries *)
  Inductive arr : fol -> fol -> Prop :=
  | arr_same f : has_body f = false -> arr f f
  | arr_not n q q' : arrq q q' -> arr (FNot n q) (FNot n q')
  | arr_some q q' : arrq q q' -> arr (FSome q) (FSome q')
  | arr_all x range range' body body' : arrq range range' -> arrq body body' -> arr (FAll x range body) (FAll x range' body')
  | arr_count x q q' : arrq q q' -> arr (FCount x q) (FCount x q')
  | arr_det c k q q' : arrq q q' -> arr (FDet c k q) (FDet c k q')
  with arrs : list fol -> list fol -> Prop :=
  | arrs_nil : arrs [] []
  | arrs_cons f f' q q' : arr f f' -> arrs q q' -> arrs (f :: q) (f' :: q')
  with arrq : list fol -> list fol -> Prop :=
  | arrq_make q q1 c : arrs q q1 -> Permutation (filter is_moved q1) c -> arrq q (c ++ filter late q1).

  Scheme arr_ind' := Induction for arr Sort Prop
    with arrs_ind' := Induction for arrs Sort Prop
    with arrq_ind' := Induction for arrq Sort Prop.
  Combined Scheme arr_mutind from arr_ind', arrs_ind', arrq_ind'.

  Definition eqs (l m : list string) : Prop := forall x, In x l <-> In x m.
  Lemma eqs_refl l : eqs l l.
  Proof. intros x. reflexivity. Qed.
  Lemma eqs_app l l' m m' : eqs l m -> eqs l' m' -> eqs (l ++ l') (m ++ m').
  Proof. intros H H' x. now rewrite !in_app_iff, (H x), (H' x). Qed.

  Lemma front_In' q c f : Permutation (filter is_moved q) c -> (In f q <-> In f (c ++ filter late q)).
  Proof. intros H. now apply front_In. Qed.

  (** *** variables and predicates *)
  Lemma arranged_names :
    (forall f f', arr f f' -> fol_binds f = fol_binds f' /\ eqs (fol_vars f) (fol_vars f') /\ eqs (fol_preds f) (fol_preds f') /\
       is_moved f = is_moved f' /\ has_body f = has_body f') /\
    (forall q q', arrs q q' -> binds q = binds q' /\ eqs (vars q) (vars q') /\ eqs (preds q) (preds q') /\
       eqs (vars (filter is_moved q)) (vars (filter is_moved q'))) /\
    (forall q q', arrq q q' -> eqs (binds q) (binds q') /\ eqs (vars q) (vars q') /\ eqs (preds q) (preds q')).
  Proof.
    apply arr_mutind.
    - intros f Hf. auto 10 using eqs_refl.
    - intros n q q' _ (A & B & C). auto.
    - intros q q' _ (A & B & C). auto.
    - intros x range range' body body' _ (A & B & C) _ (A' & B' & C'). repeat split; auto.
      + intros [->|H]; simpl; auto. right. apply (eqs_app _ _ _ _ B B') in H. exact H.
      + intros [->|H]; simpl; auto. right. apply (eqs_app _ _ _ _ B B') in H. exact H.
      + intros H. apply (eqs_app _ _ _ _ C C') in H. exact H.
      + intros H. apply (eqs_app _ _ _ _ C C') in H. exact H.
    - intros x q q' _ (A & B & C). repeat split; auto; try (apply C).
      + intros [->|H]; simpl; auto. right. now apply B.
      + intros [->|H]; simpl; auto. right. now apply B.
    - intros c k q q' _ (A & B & C). auto.
    - auto using eqs_refl.
    - intros f f' q q' _ (A & B & C & D & E) _ (A' & B' & C' & D'). unfold binds, vars, preds in *. cbn [flat_map filter].
      repeat split; auto using eqs_app; try (apply (eqs_app _ _ _ _ B B')); try (apply (eqs_app _ _ _ _ C C')); [congruence| |];
        rewrite <- D; destruct (is_moved f); try (apply D'); apply (eqs_app _ _ _ _ B D').
    - intros q q1 c _ (A & B & C & _) Hp. rewrite A.
      repeat split; intros H; try (apply B in H); try (apply C in H); try (apply B); try (apply C);
        apply in_flat_map in H as (f & Hf & Hx); apply in_flat_map; exists f; (split; [|exact Hx]);
        apply (front_In' q1 c); auto.
  Qed.

  Variable ext : string -> list value -> Prop.
  Variable good : fatom -> Prop.
  Notation wf := (well_formed good []).
  Notation wfs := (wfs good []).
  Notation tidy := (tidy moved).
  Notation tidies := (tidies moved).
  Notation placed := (placed moved).

  Lemma possible_iff B q q' s : (forall t, const_assignment t -> (all_hold ext B q t <-> all_hold ext B q' t)) ->
    (possible ext B q s <-> possible ext B q' s).
  Proof.
    intros H. split; intros (t & T1 & T2 & T3); exists t; (split; [auto|]; split; [auto|]); now apply H.
  Qed.

  Lemma local_any B xs : local [] B xs.
  Proof. apply local_nil. Qed.

  Lemma arranged_meaning :
    (forall f f', arr f f' -> forall B, wf B f -> tidy B f ->
       wf B f' /\ tidy B f' /\ forall s, const_assignment s -> (holds ext B f s <-> holds ext B f' s)) /\
    (forall q q', arrs q q' -> forall before before' B, eqs before before' -> wfs B q -> tidies before B q ->
       wfs B q' /\ tidies before' B q' /\ forall s, const_assignment s -> (all_hold ext B q s <-> all_hold ext B q' s)) /\
    (forall q q', arrq q q' -> forall B, wfs B q -> tidies [] B q ->
       wfs B q' /\ tidies [] B q' /\ forall s, const_assignment s -> (all_hold ext B q s <-> all_hold ext B q' s)).
  Proof.
    apply arr_mutind.
    - intros f Hf B Hw Ht. split; auto. split; auto. reflexivity.
    - intros n q q' _ IH B [Hl Hw] Ht. destruct (IH B Hw Ht) as (A1 & A2 & A3).
      split; [split; [apply local_nil|exact A1]|]. split; [exact A2|].
      intros s Hs. rewrite !holds_not, (possible_iff B q q' s A3). reflexivity.
    - intros q q' _ IH B [Hl Hw] Ht. destruct (IH B Hw Ht) as (A1 & A2 & A3).
      split; [split; [apply local_nil|exact A1]|]. split; [exact A2|].
      intros s Hs. rewrite !holds_some, (possible_iff B q q' s A3). reflexivity.
    - intros x range range' body body' Ar IHr Ab IHb B Hw Ht. rewrite wf_all in Hw. destruct Hw as (W1 & W2 & W3 & W4 & W5 & W6 & W7).
      destruct Ht as [T1 T2]. destruct (IHr B W5 T1) as (A1 & A2 & A3). destruct (IHb _ W7 T2) as (C1 & C2 & C3).
      destruct arranged_names as (_ & _ & NQ). destruct (NQ _ _ Ar) as (N1 & N2 & _).
      split; [rewrite wf_all; repeat (split; [first [assumption|apply local_nil|now apply N1]|]); exact C1|].
      split; [split; assumption|].
      intros s Hs. rewrite !holds_all.
      assert (G : forall v, in_range ext B x range s v <-> in_range ext B x range' s v).
      { intros v. split; intros (t & D1 & D2 & D3 & D4); exists t; repeat (split; [assumption|]); now apply A3. }
      rewrite G. split; intros [G1 G2]; split; auto; intros v Hv; apply G in Hv || (apply G in Hv); apply G2 in Hv;
        destruct Hv as (t & D1 & D2 & D3 & D4); exists t; repeat (split; [assumption|]); now apply C3.
    - intros x q q' Aq IH B Hw Ht. rewrite wf_count in Hw. destruct Hw as (W1 & W2 & W3 & W4 & W5).
      destruct (IH B W5 Ht) as (A1 & A2 & A3). destruct arranged_names as (_ & _ & NQ). destruct (NQ _ _ Aq) as (N1 & N2 & _).
      split; [rewrite wf_count; repeat (split; [first [assumption|apply local_nil|now rewrite <- (N2 x)]|]); exact A1|].
      split; [exact A2|]. intros s Hs. rewrite !holds_count.
      split; intros (n & D1 & D2); exists n; (split; [|exact D2]); apply (number_iff ext B q q' s n A3 N1); exact D1.
    - intros c k q q' Aq IH B [Hl Hw] Ht. destruct (IH B Hw Ht) as (A1 & A2 & A3).
      destruct arranged_names as (_ & _ & NQ). destruct (NQ _ _ Aq) as (N1 & N2 & _).
      split; [split; [apply local_nil|exact A1]|]. split; [exact A2|].
      intros s Hs. rewrite !holds_det.
      split; intros (n & D1 & D2); exists n; (split; [|exact D2]); apply (number_iff ext B q q' s n A3 N1); exact D1.
    - intros before before' B _ _ _. repeat split; auto.
    - intros f f' q q' Af IHf Aq IHq before before' B He [W1 W2] (T1 & T2 & T3).
      destruct arranged_names as (NF & NS & _). destruct (NF _ _ Af) as (E1 & E2 & _ & E4 & E5).
      destruct (NS _ _ Aq) as (F1 & F2 & _ & F4).
      destruct (IHf B W1 T1) as (A1 & A2 & A3).
      destruct (IHq (fol_vars f ++ before) (fol_vars f' ++ before') (fol_binds f ++ B)) as (C1 & C2 & C3); auto using eqs_app.
      rewrite E1 in C1, C2. split; [split; assumption|]. split.
      + split; [assumption|]. split; [|assumption].
        intros Hb x Hx. rewrite <- E5 in Hb. apply E2 in Hx. destruct (T2 Hb x Hx) as [P1 P2]. rewrite <- E1.
        split.
        * intros Hi F. apply (P1 Hi). now apply F4.
        * intros Hi. destruct (P2 Hi) as [|[P3 P4]]; auto. right. split; [now rewrite <- (He x)|now rewrite <- (F2 x)].
      + intros s Hs. cbn [all_hold]. rewrite (A3 s Hs), (C3 s Hs), E1. reflexivity.
    - intros q q1 c Aq IH Hp B Hw Ht. destruct (IH [] [] B (eqs_refl _) Hw Ht) as (A1 & A2 & A3).
      split; [now apply front_wf|]. split; [now apply front_tidy|].
      intros s Hs. rewrite (A3 s Hs). now apply (front_holds good moved ext B q1 c).
  Qed.

  (** *** sorts *)
  Lemma all_sorted_In sig env q : all_sorted sig env q <-> forall f, In f q -> sorted sig env f.
  Proof.
    induction q as [|f q IH]; [split; [intros _ f []|exact (fun _ => I)]|]. cbn [all_sorted]. rewrite IH. split.
    - intros [A1 A2] g [<-|Hg]; auto.
    - intros A. split; [|intros]; apply A; simpl; auto.
  Qed.
  Lemma arranged_sorted sig env :
    (forall f f', arr f f' -> sorted sig env f -> sorted sig env f') /\
    (forall q q', arrs q q' -> all_sorted sig env q -> all_sorted sig env q') /\
    (forall q q', arrq q q' -> all_sorted sig env q -> all_sorted sig env q').
  Proof.
    apply arr_mutind; auto.
    - intros x range range' body body' _ IHr _ IHb [A1 A2]. split; [exact (IHr A1)|exact (IHb A2)].
    - intros x q q' _ IH [A1 A2]. split; [exact A1|exact (IH A2)].
    - intros f f' q q' _ IHf _ IHq [A1 A2]. split; auto.
    - intros q q1 c _ IH Hp A. specialize (IH A). rewrite all_sorted_In in *.
      intros f Hf. apply IH. now apply (front_In' q1 c).
  Qed.
End Arranged.
