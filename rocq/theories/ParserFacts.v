(** * Facts about normalisation, words and the sort keys *)

From Coq Require Import ZArith String Ascii List Bool Arith Lia.
From Verif Require Import Py Effects Grammar Earley ParserSpec GrammarProofs EarleyProofs EarleyProofs2 EarleyProofs3.
Import ListNotations.
Local Open Scope string_scope.
Local Open Scope list_scope.

(** ** whitespace *)
Definition space (c : ascii) : Prop := is_space c = true.
Fixpoint all_space (s : string) : Prop := match s with EmptyString => True | String c s' => space c /\ all_space s' end.
Definition starts_with_space (s : string) : Prop := match s with EmptyString => False | String c _ => space c end.

(** [squeezed s r]: [r] is [s] with each maximal run of whitespace replaced by
    one space *)
Inductive squeezed : string -> string -> Prop :=
| squeezed_nil : squeezed "" ""
| squeezed_char c s r : ~ space c -> squeezed s r -> squeezed (String c s) (String c r)
| squeezed_run w s r : w <> "" -> all_space w -> ~ starts_with_space s -> squeezed s r ->
    squeezed (append w s) (String " " r).

Lemma squeeze_spec s :
  squeezed s (squeeze false s) /\
  (exists w rest, s = append w rest /\ all_space w /\ ~ starts_with_space rest /\ squeezed rest (squeeze true s)).
Proof.
  induction s as [|c s [IH1 (w & rest & E & Hw & Hr & IH2)]].
  - split; [constructor|]. exists "", "". repeat split; auto. constructor.
  - cbn [squeeze]. destruct (is_space c) eqn:Ec.
    + split.
      * subst s. change (String c (append w rest)) with (append (String c w) rest). apply squeezed_run; [discriminate|split; assumption|exact Hr|exact IH2].
      * exists (String c w), rest. subst s. repeat split; auto.
    + assert (Hc : ~ space c) by (unfold space; congruence). split.
      * now constructor.
      * exists "", (String c s). split; [reflexivity|]. split; [exact I|]. split; [exact Hc|]. now constructor.
Qed.

(** the relation has one result *)
Lemma squeeze_skip w s : all_space w -> ~ starts_with_space s -> squeeze true (append w s) = squeeze false s.
Proof.
  intros Hw Hs. induction w as [|c w IH]; cbn [append].
  - destruct s as [|c s]; [reflexivity|]. cbn [squeeze]. destruct (is_space c) eqn:E; [exfalso; apply Hs; exact E|reflexivity].
  - destruct Hw as [Hc Hw]. cbn [squeeze]. unfold space in Hc. rewrite Hc. auto.
Qed.
Lemma squeezed_unique s r : squeezed s r -> r = squeeze false s.
Proof.
  induction 1 as [|c s r Hc H IH|w s r Hw Ha Hs H IH].
  - reflexivity.
  - cbn [squeeze]. unfold space in Hc. destruct (is_space c); [congruence|]. now rewrite <- IH.
  - destruct w as [|c w]; [congruence|]. destruct Ha as [Hc Ha]. cbn [append squeeze]. unfold space in Hc. rewrite Hc, squeeze_skip by assumption. now rewrite <- IH.
Qed.

(** a squeezed text *)
Fixpoint tight (before : bool) (s : string) : Prop :=
  match s with
  | EmptyString => True
  | String c s' => (space c -> c = " "%char /\ before = false) /\ tight (is_space c) s'
  end.
Lemma squeeze_tight s : forall b, tight b (squeeze b s).
Proof.
  induction s as [|c s IH]; intros b; cbn [squeeze]; [exact I|]. destruct (is_space c) eqn:Ec.
  - destruct b; [apply IH|]. cbn [tight]. split; [auto|]. apply (IH true).
  - cbn [tight]. rewrite Ec. split; [unfold space; congruence|apply IH].
Qed.
Lemma tight_squeeze s : forall b, tight b s -> squeeze b s = s.
Proof.
  induction s as [|c s IH]; intros b H; [reflexivity|]. cbn [squeeze tight] in *. destruct H as [H1 H2]. destruct (is_space c) eqn:Ec.
  - destruct (H1 Ec) as [-> ->]. now rewrite IH.
  - now rewrite IH.
Qed.
Fixpoint visible (s : string) : string :=
  match s with EmptyString => EmptyString | String c s' => if is_space c then visible s' else String c (visible s') end.
Lemma squeeze_visible s : forall b, visible (squeeze b s) = visible s.
Proof.
  induction s as [|c s IH]; intros b; [reflexivity|]. cbn [squeeze visible]. destruct (is_space c) eqn:Ec.
  - destruct b; [apply IH|]. cbn [visible]. apply IH.
  - cbn [visible]. rewrite Ec. now rewrite IH.
Qed.

(** ** the sort keys *)
Section Keys.
  Context {S : Type}.
  Notation tree := (@tree S).

  (** the rules of the nodes of a tree *)
  Fixpoint nodes (t : tree) : list (grule S) := match t with Node _ ts _ r => r :: flat_map nodes ts end.
  Definition total_boost (t : tree) : Z := fold_right Z.add 0%Z (map g_boost (nodes t)).
  Definition regexp_nodes (t : tree) : nat := length (filter (fun r => ptype_eqb (k_type (g_ante r)) PRegExp) (nodes t)).
  Fixpoint height (t : tree) : nat := match t with Node _ ts _ _ => Datatypes.S (fold_right Nat.max 0 (map height ts)) end.

  Section Ind.
    Variable P : tree -> Prop.
    Hypothesis H : forall cat ts form r, Forall P ts -> P (Node cat ts form r).
    Fixpoint tree_ind' (t : tree) : P t :=
      match t with
      | Node cat ts form r => H cat ts form r ((fix go (l : list tree) : Forall P l :=
          match l with [] => Forall_nil P | x :: l' => Forall_cons x (tree_ind' x) (go l') end) ts)
      end.
  End Ind.

  Lemma sum_app l1 l2 : (fold_right Z.add 0 (l1 ++ l2) = fold_right Z.add 0 l1 + fold_right Z.add 0 l2)%Z.
  Proof. induction l1 as [|x l1 IH]; simpl; [reflexivity|]. rewrite IH. lia. Qed.
  Lemma get_boost_total t : get_boost t = total_boost t.
  Proof.
    induction t as [cat ts form r IH] using tree_ind'. unfold total_boost. cbn [get_boost nodes map fold_right].
    assert (HG : forall b, fold_left (fun b c => (b + get_boost c)%Z) ts b = (b + fold_right Z.add 0 (map g_boost (flat_map nodes ts)))%Z).
    { induction IH as [|x ts Hx HF IHt]; intros b; simpl; [lia|]. rewrite IHt, map_app, sum_app, Hx. unfold total_boost. lia. }
    apply HG.
  Qed.
  Lemma count_tokens_nodes t : count_tokens t = Z.of_nat (regexp_nodes t).
  Proof.
    induction t as [cat ts form r IH] using tree_ind'. unfold regexp_nodes. cbn [count_tokens nodes filter].
    assert (HG : forall b, fold_left (fun n c => (n + count_tokens c)%Z) ts b =
      (b + Z.of_nat (length (filter (fun r => ptype_eqb (k_type (g_ante r)) PRegExp) (flat_map nodes ts))))%Z).
    { induction IH as [|x ts Hx HF IHt]; intros b; simpl; [lia|]. rewrite IHt, filter_app, app_length, Hx. unfold regexp_nodes. lia. }
    rewrite HG. destruct (ptype_eqb _ _); cbn [length]; lia.
  Qed.
  Lemma get_depth_height t : forall b, get_depth b t = (b - Z.of_nat (height t))%Z.
  Proof.
    induction t as [cat ts form r IH] using tree_ind'. intros b. cbn [get_depth height].
    assert (HG : forall d, (d <= b - 1)%Z -> fold_left (fun d c => Z.min d (get_depth (b - 1) c)) ts d =
      Z.min d (b - 1 - Z.of_nat (fold_right Nat.max 0%nat (map height ts)))%Z).
    { induction IH as [|x ts Hx HF IHt]; intros d Hd; simpl; [lia|]. rewrite IHt, Hx; lia. }
    rewrite HG by lia. lia.
  Qed.

  (** ** subtrees and the positions where they start *)
  Inductive node_at : tree -> nat -> tree -> nat -> Prop :=
  | node_here t i : node_at t i t i
  | node_child cat l t more form r i u p :
      node_at t (i + String.length (fold_right (fun x s => append (spell x) s) "" l)) u p ->
      node_at (Node cat (l ++ t :: more) form r) i u p.
End Keys.

Section Leaves.
  Context {S : Type}.
  Variable scan_mean : option string -> S.
  Variable re_match : string -> string -> outcome (option string).
  Variable G : grule S -> Prop.
  Variable text : string.
  Hypothesis Hre : re_ok re_match.

  Lemma spell_length_all cs i j (ts : list (@tree S)) : derives_all scan_mean re_match G text cs i j ts -> i <= String.length text ->
    i + String.length (fold_right (fun t s => append (spell t) s) "" ts) = j.
  Proof.
    intros H Hi. destruct (proj2 (derives_spells scan_mean re_match G text Hre) _ _ _ _ H) as (H1 & H2 & H3).
    rewrite <- lower_length, H3, lower_length. rewrite take_length_eq; [lia|]. rewrite drop_length. specialize (H2 Hi). lia.
  Qed.
  Lemma derives_all_split cs : forall i j l t more, derives_all scan_mean re_match G text cs i j (l ++ t :: more) -> i <= String.length text ->
    exists c p q, derives scan_mean re_match G text c p q t /\ p = i + String.length (fold_right (fun x s => append (spell x) s) "" l) /\ p <= String.length text.
  Proof.
    induction cs as [|c cs IH]; intros i j [|x l] t more H Hi; simpl in H; inversion H as [|? ? ? q ? ? ? Hd Ha]; subst.
    - exists c, i, q. split; [exact Hd|]. simpl. split; lia.
    - destruct (proj1 (derives_spells scan_mean re_match G text Hre) _ _ _ _ Hd) as (H1 & H2 & H3).
      destruct (IH _ _ _ _ _ Ha (H2 Hi)) as (c' & p & q' & Hd' & -> & Hp). exists c', (q + String.length (fold_right (fun x s => append (spell x) s) "" l)), q'.
      split; [exact Hd'|]. split; [|exact Hp]. simpl. rewrite append_length.
      assert (E : String.length (spell x) = q - i).
      { rewrite <- lower_length, H3, lower_length. apply take_length_eq. rewrite drop_length. specialize (H2 Hi). lia. }
      lia.
  Qed.
  (** every subtree is a derivation at its position *)
  Lemma node_derives t i u p : node_at t i u p -> forall c j, derives scan_mean re_match G text c i j t -> i <= String.length text ->
    exists c' q, derives scan_mean re_match G text c' p q u.
  Proof.
    induction 1 as [t i|cat l t more form r i u p H IH]; intros c j HD Hi; [eauto|].
    inversion HD as [| |? ? ? ? ? Gr Kr Ha]; subst.
    - destruct l; discriminate.
    - destruct l; discriminate.
    - destruct (derives_all_split _ _ _ _ _ _ Ha Hi) as (c' & p' & q & Hd & -> & Hp). eapply IH; [exact Hd|exact Hp].
  Qed.
End Leaves.
