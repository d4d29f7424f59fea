(** * Chains of facts, and replies *)

From Coq Require Import ZArith String Ascii List ListDec Bool Arith Lia Relations.
From Verif Require Import Py PyFacts Effects Solver Grammar Earley Generator SimpleDataSource Memory Pipeline FragmentModel QuestionSystem TalkModel SirModel SirSpec
  SirProofs2 SirProofs4 SirProofs5 SirProofs6.
Import ListNotations.
Local Open Scope nat_scope.
Local Open Scope string_scope.
Local Open Scope list_scope.

Lemma any_some l r : any_of l = Some r -> (forall o, In o l -> o <> None) /\ (r = true <-> In (Some true) l).
Proof.
  revert r. induction l as [|o l IH]; intros r E; cbn [any_of] in E.
  - injection E as <-. split; [intros o []|]. split; [discriminate|intros []].
  - destruct o as [a|]; [|discriminate]. destruct (any_of l) as [b|]; [|discriminate]. injection E as <-. destruct (IH b eq_refl) as (H1 & H2). split.
    + intros o [<-|H]; [discriminate|now apply H1].
    + rewrite orb_true_iff, H2. cbn [In]. split; [intros [->|H]; auto|intros [[= ->]|H]; auto].
Qed.
Lemma any_none l : any_of l = None <-> In None l.
Proof.
  induction l as [|o l IH]; cbn [any_of In]; [split; [discriminate|intros []]|].
  destruct o as [a|]; [|tauto]. destruct (any_of l) as [b|].
  - split; [discriminate|]. intros [H|H]; [discriminate|]. apply IH in H. discriminate.
  - tauto.
Qed.

Lemma twice (l : list string) : ~ NoDup l -> exists z l1 l2 l3, l = l1 ++ z :: l2 ++ z :: l3.
Proof.
  induction l as [|c l IH]; intros H; [destruct H; constructor|]. destruct (in_dec string_dec c l) as [Hc|Hc].
  - apply in_split in Hc as (l2 & l3 & ->). exists c, [], l2, l3. reflexivity.
  - destruct IH as (z & l1 & l2 & l3 & ->); [intros H'; apply H; now constructor|]. exists z, (c :: l1), l2, l3. reflexivity.
Qed.

Section Chains.
  Variable facts : list (string * string).
  Notation chase := (chase facts).
  Notation chain := (chain facts).

  (** a walk of so many steps *)
  Inductive walk : nat -> string -> Prop :=
  | stay x : walk 0 x
  | go n x c : In (x, c) facts -> walk n c -> walk (S n) x.

  Lemma chase_chain n : forall x y r, chase n x y = Some r -> (r = true <-> chain x y).
  Proof.
    induction n as [|[|n] IH]; intros x y r E; [discriminate|discriminate|]. rewrite chase_S in E.
    destruct (any_of (map (fun c => chase (S n) c y) (succs facts x))) as [s|] eqn:Ea; [|discriminate]. injection E as <-.
    destruct (any_some _ _ Ea) as (H1 & H2). rewrite orb_true_iff, direct_spec, H2. split.
    - intros [H|H]; [now apply t_step|]. apply in_map_iff in H as (c & Ec & Hc). apply In_succs in Hc.
      apply t_trans with c; [now apply t_step|]. now apply (IH c y true Ec).
    - intros H. apply clos_trans_t1n in H. inversion H as [? Hs|c ? Hs Ht]; subst; [now left|]. right. apply in_map_iff. exists c.
      assert (Hc : In c (succs facts x)) by (now apply In_succs). split; [|exact Hc].
      destruct (chase (S n) c y) as [b|] eqn:Eb.
      + f_equal. apply (IH c y b Eb). now apply clos_t1n_trans.
      + exfalso. apply (H1 None); [|reflexivity]. apply in_map_iff. eauto.
  Qed.

  Lemma chase_walk n : forall x y, chase (S n) x y = None <-> walk n x.
  Proof.
    induction n as [|n IH]; intros x y.
    - split; [intros _; constructor|reflexivity].
    - rewrite chase_S. destruct (any_of (map (fun c => chase (S n) c y) (succs facts x))) as [s|] eqn:Ea.
      + split; [discriminate|]. intros H. inversion H as [|? ? c Hc Hw]; subst. exfalso. apply (IH c y) in Hw.
        destruct (any_some _ _ Ea) as (H1 & _). apply (H1 None); [|reflexivity]. apply in_map_iff. exists c. split; [exact Hw|]. now apply In_succs.
      + split; [|reflexivity]. intros _. apply any_none in Ea. apply in_map_iff in Ea as (c & Ec & Hc). apply go with c; [now apply In_succs|]. now apply (IH c y).
  Qed.

  (** on a circle one can walk for ever *)
  Lemma around z : chain z z -> forall n u, chain u z -> walk n u.
  Proof.
    intros Hz. induction n as [|n IH]; intros u Hu; [constructor|]. apply clos_trans_t1n in Hu. inversion Hu as [? Hs|c ? Hs Ht]; subst.
    - apply go with z; auto.
    - apply go with c; auto. apply IH. now apply clos_t1n_trans.
  Qed.
  Lemma circular_walk x n : circular facts x -> walk n x.
  Proof. intros (z & Hx & Hz). now apply (around z Hz). Qed.

  (** a walk that is longer than there are facts passes a circle *)
  Fixpoint path (x : string) (l : list string) : Prop :=
    match l with [] => True | c :: l' => In (x, c) facts /\ path c l' end.
  Lemma walk_path n : forall x, walk n x -> exists l, length l = n /\ path x l.
  Proof.
    induction n as [|n IH]; intros x H; [exists []; now split|]. inversion H as [|? ? c Hc Hw]; subst.
    destruct (IH c Hw) as (l & El & Hl). exists (c :: l). split; [cbn; congruence|]. split; assumption.
  Qed.
  Lemma path_chain l z : forall x, path x l -> In z l -> chain x z.
  Proof.
    induction l as [|c l IH]; intros x Hp H; [destruct H|]. destruct Hp as (Hc & Hp). destruct H as [<-|H]; [now apply t_step|].
    apply t_trans with c; [now apply t_step|now apply IH].
  Qed.
  Lemma path_incl l : forall x, path x l -> incl l (map snd facts).
  Proof.
    induction l as [|c l IH]; intros x Hp z H; [destruct H|]. destruct Hp as (Hc & Hp). destruct H as [<-|H]; [|now apply (IH c)].
    change c with (snd (x, c)). now apply in_map.
  Qed.
  Lemma path_again z l2 l3 l1 : forall x, path x (l1 ++ z :: l2 ++ z :: l3) -> circular facts x.
  Proof.
    induction l1 as [|c l1 IH]; intros x Hp; cbn [app path] in Hp; destruct Hp as (Hc & Hp).
    - exists z. split; [now apply t_step|]. apply (path_chain _ z z Hp). apply in_app_iff. right. now left.
    - destruct (IH c Hp) as (u & Hu & Hz). exists u. split; [|exact Hz]. apply t_trans with c; [now apply t_step|exact Hu].
  Qed.
  Lemma long_walk n x : walk n x -> length facts < n -> circular facts x.
  Proof.
    intros Hw Hn. destruct (walk_path n x Hw) as (l & El & Hl).
    destruct (ListDec.NoDup_dec string_dec l) as [Hd|Hd].
    - exfalso. pose proof (NoDup_incl_length Hd (path_incl l x Hl)) as H. rewrite map_length in H. lia.
    - apply twice in Hd as (z & l1 & l2 & l3 & ->). now apply (path_again z l2 l3 l1).
  Qed.

  (** ** the types of the replies *)
  Inductive right_type (x y : string) : string -> Prop :=
  | type_yes : x = y \/ chain x y -> right_type x y "yes"
  | type_sometimes : x <> y -> ~ chain x y -> chain y x -> right_type x y "sometimes"
  | type_unknown : x <> y -> ~ chain x y -> ~ chain y x -> right_type x y "unknown".

  (** whatever is answered is right *)
  Lemma answer_sound x y n t : answer facts n x y = Some t -> right_type x y t /\ answerable facts (Asked x y).
  Proof.
    unfold answer. destruct (chase n x y) as [r|] eqn:Er; [|discriminate].
    assert (Hx : ~ circular facts x).
    { intros H. destruct n as [|n]; [discriminate|]. apply (circular_walk x n) in H. apply (chase_walk n x y) in H. congruence. }
    apply chase_chain in Er.
    destruct (String.eqb_spec x y) as [->|N]; [intros [= <-]; split; [constructor; now left|split; [exact Hx|now left]]|].
    destruct r; cbn [orb].
    { intros [= <-]. assert (C : chain x y) by (now apply Er). split; [constructor; now right|split; [exact Hx|now (right; left)]]. }
    destruct (chase (1 + n) y x) as [s|] eqn:Es; [|discriminate].
    assert (Hy : ~ circular facts y).
    { intros H. apply (circular_walk y n) in H. apply (chase_walk n y x) in H. change (1 + n) with (S n) in Es. congruence. }
    apply chase_chain in Es.
    assert (Nc : ~ chain x y) by (intros H; apply Er in H; discriminate).
    destruct s; intros [= <-]; (split; [|split; [exact Hx|right; right; exact Hy]]); constructor; auto.
    - now apply Es.
    - intros H. apply Es in H. discriminate.
  Qed.
  (** what is not answered, cannot be *)
  Lemma answer_none x y n : 2 + length facts <= n -> answer facts n x y = None -> ~ answerable facts (Asked x y).
  Proof.
    intros Hn. unfold answer. destruct (chase n x y) as [r|] eqn:Er.
    - apply chase_chain in Er. destruct (String.eqb_spec x y) as [->|N]; [discriminate|]. destruct r; [discriminate|]. cbn [orb].
      destruct (chase (1 + n) y x) as [[|]|] eqn:Es; [discriminate|discriminate|]. intros _ (_ & [H|[H|H]]); [contradiction| |].
      + apply Er in H. discriminate.
      + apply H. apply (long_walk n); [|lia]. now apply (chase_walk n y x).
    - intros _ (H & _). apply H. destruct n as [|n]; [lia|]. apply (long_walk n); [|lia]. now apply (chase_walk n x y).
  Qed.
End Chains.

(** ** reading the replies *)
Lemma read_reply n rows t r : In (t, r) [("understand", "I understand"); ("yes", "Yes"); ("sometimes", "Sometimes"); ("unknown", "Insufficient information")] ->
  generate_output (grammar_rules sir_replies) (solve sir_mods (4 + n)) out_lens (4 + n) (state rows (typed t)) = (Ok (VStr r), state rows []).
Proof.
  intros H. repeat (destruct H as [[= <- <-]|H]; [vm_compute; reflexivity|]). destruct H.
Qed.
