(** * Transitive rules: their calls descend just when the table has no circle *)

From Coq Require Import ZArith QArith String List Bool Lia Arith ListDec.
From Verif Require Import Py PyFacts Effects Solver CoreModule InferenceModule TableModule
  DatalogSpec RecursionSpec DatalogProofs DatalogProofs2 DatalogThms DatalogProofs3.
Import ListNotations.
Local Close Scope Q_scope.
Local Open Scope string_scope.
Local Open Scope nat_scope.
Local Open Scope list_scope.

Lemma q_dec (a b : Q) : {a = b} + {a <> b}.
Proof. decide equality; [apply Pos.eq_dec|apply Z.eq_dec]. Defined.

Fixpoint value_dec (a b : value) {struct a} : {a = b} + {a <> b}.
Proof.
  decide equality; solve [apply bool_dec | apply Z.eq_dec | apply q_dec | apply string_dec | apply (list_eq_dec value_dec)].
Defined.

Section Walks.
  Variable rows : list (list value).
  Notation chain := (chain rows).
  Notation circular := (circular rows).

  Lemma chain_trans x z y : chain x z -> chain z y -> chain x y.
  Proof. intros H Hy. induction H; eapply more_rows; eauto. Qed.

  Lemma circular_next x : circular x -> exists z, In [x; z] rows /\ circular z.
  Proof.
    intros (c & Hx & Hc). assert (H : chain x c) by (destruct Hx as [->|?]; assumption).
    inversion H as [? ? Hr|? z ? Hr Hz]; subst.
    - exists c. split; [exact Hr|]. exists c. auto.
    - exists z. split; [exact Hr|]. exists c. auto.
  Qed.

  Lemma circular_back x z : In [x; z] rows -> circular z -> circular x.
  Proof.
    intros Hr (c & Hz & Hc). exists c. split; [|exact Hc]. right.
    destruct Hz as [->|Hz]; [now apply one_row|eapply more_rows; eauto].
  Qed.

  (** a walk along the rows *)
  Fixpoint path (x : value) (l : list value) : Prop :=
    match l with [] => True | c :: l' => In [x; c] rows /\ path c l' end.
  Lemma path_chain l z : forall x, path x l -> In z l -> chain x z.
  Proof.
    induction l as [|c l IH]; intros x Hp H; [destruct H|]. destruct Hp as (Hc & Hp).
    destruct H as [<-|H]; [now apply one_row|]. eapply more_rows; eauto.
  Qed.
  Definition ends : list value := map (fun t => nth 1 t VNone) rows.
  Lemma path_incl l : forall x, path x l -> incl l ends.
  Proof.
    induction l as [|c l IH]; intros x Hp z H; [destruct H|]. destruct Hp as (Hc & Hp).
    destruct H as [<-|H]; [|now apply (IH c)]. apply in_map_iff. exists [x; c]. auto.
  Qed.
  Lemma value_twice (l : list value) : ~ NoDup l -> exists z l1 l2 l3, l = l1 ++ z :: l2 ++ z :: l3.
  Proof.
    induction l as [|c l IH]; intros H; [destruct H; constructor|]. destruct (in_dec value_dec c l) as [Hc|Hc].
    - apply in_split in Hc as (l2 & l3 & ->). exists c, [], l2, l3. reflexivity.
    - destruct IH as (z & l1 & l2 & l3 & ->); [intros H'; apply H; now constructor|]. exists z, (c :: l1), l2, l3. reflexivity.
  Qed.
  Lemma path_again z l2 l3 l1 : forall x, path x (l1 ++ z :: l2 ++ z :: l3) -> circular x.
  Proof.
    induction l1 as [|c l1 IH]; intros x Hp; cbn [app path] in Hp; destruct Hp as (Hc & Hp).
    - exists z. split; [right; now apply one_row|]. apply (path_chain _ z z Hp). apply in_app_iff. right. now left.
    - eapply circular_back; eauto.
  Qed.
  Lemma long_path x l : path x l -> length rows < length l -> circular x.
  Proof.
    intros Hl Hn. destruct (ListDec.NoDup_dec value_dec l) as [Hd|Hd].
    - exfalso. pose proof (NoDup_incl_length Hd (path_incl l x Hl)) as H. unfold ends in H. rewrite map_length in H. lia.
    - apply value_twice in Hd as (z & l1 & l2 & l3 & ->). now apply (path_again z l2 l3 l1).
  Qed.

  (** the length of the longest walk, up to [k] *)
  Definition nexts (x : value) : list value :=
    flat_map (fun t => match t with [a; c] => if value_dec a x then [c] else [] | _ => [] end) rows.
  Lemma In_nexts x c : In c (nexts x) <-> In [x; c] rows.
  Proof.
    unfold nexts. rewrite in_flat_map. split.
    - intros (t & Ht & H). destruct t as [|a [|d [|e t]]]; try destruct H.
      all: destruct (value_dec a x) as [->|]; [destruct H as [<-|[]]; exact Ht|destruct H].
    - intros H. exists [x; c]. split; [exact H|]. destruct (value_dec x x); [now left|congruence].
  Qed.
  Fixpoint height (k : nat) (x : value) : nat :=
    match k with
    | O => O
    | S k' => list_max (map (fun c => S (height k' c)) (nexts x))
    end.
  Lemma height_le k x n : height (S k) x <= n <-> forall c, In [x; c] rows -> S (height k c) <= n.
  Proof.
    cbn [height]. rewrite list_max_le, Forall_forall. split.
    - intros H c Hc. apply H. apply in_map_iff. exists c. split; [reflexivity|]. now apply In_nexts.
    - intros H m Hm. apply in_map_iff in Hm as (c & <- & Hc). apply H. now apply In_nexts.
  Qed.
  Lemma height_bound k : forall x, height k x <= k.
  Proof. induction k as [|k IH]; intros x; [cbn; lia|]. apply height_le. intros c _. specialize (IH c). lia. Qed.
  Lemma list_max_in (l : list nat) : l <> [] -> In (list_max l) l.
  Proof.
    induction l as [|a l IH]; intros H; [congruence|]. destruct l as [|b l]; [left; cbn; lia|].
    change (list_max (a :: b :: l)) with (Nat.max a (list_max (b :: l))).
    destruct (Nat.max_spec a (list_max (b :: l))) as [[_ ->]|[_ ->]]; [right; now apply IH|now left].
  Qed.
  Lemma height_path k : forall x, exists l, length l = height k x /\ path x l.
  Proof.
    induction k as [|k IH]; intros x; [exists []; split; reflexivity|]. cbn [height].
    destruct (nexts x) as [|c0 l0] eqn:E; [exists []; split; reflexivity|]. rewrite <- E.
    assert (Hin : In (list_max (map (fun c => S (height k c)) (nexts x))) (map (fun c => S (height k c)) (nexts x))).
    { apply list_max_in. rewrite E. discriminate. }
    apply in_map_iff in Hin as (c & Ec & Hc). destruct (IH c) as (l & El & Hl). exists (c :: l). split; [cbn; congruence|].
    split; [now apply In_nexts|exact Hl].
  Qed.
  Lemma height_stable k : forall x, height k x < k -> height (S k) x = height k x.
  Proof.
    induction k as [|k IH]; intros x H; [lia|].
    assert (Hc : forall c, In [x; c] rows -> height (S k) c = height k c).
    { intros c Hc. apply IH. assert (H' : height (S k) x <= height (S k) x) by lia.
      rewrite height_le in H'. specialize (H' c Hc). lia. }
    cbn [height]. cbn [height] in Hc. f_equal. apply map_ext_in. intros c Hin. apply In_nexts in Hin.
    now rewrite (Hc c Hin).
  Qed.

  Definition top : nat := S (length rows).
  Lemma height_top x : ~ circular x -> height top x < top.
  Proof.
    intros Hx. destruct (height_path top x) as (l & El & Hl). unfold top at 2.
    destruct (Nat.lt_ge_cases (length rows) (height top x)) as [H|H]; [|lia].
    exfalso. apply Hx. apply (long_path x l); [exact Hl|lia].
  Qed.
  Lemma height_descends x z : In [x; z] rows -> ~ circular x -> height top z < height top x.
  Proof.
    intros Hr Hx. rewrite <- (height_stable top x) by (now apply height_top).
    assert (H : height (S top) x <= height (S top) x) by lia. rewrite height_le in H. specialize (H z Hr). lia.
  Qed.
End Walks.

(** ** path(X, Y) :- edge(X, Y).   path(X, Y) :- edge(X, Z), path(Z, Y). *)
Section Transitive.
  Variables edge path_ : string.
  Variables X Y Z : string.
  Notation transitive := (transitive edge path_ X Y Z).

  Context {W : Type}.
  Variable L : lens W rulebase.
  Variable tables : W -> string -> option (list (list value)).
  Variable arity : string -> nat.
  Variable w : W.
  Variable rows : list (list value).
  Hypothesis Hxy : X <> Y.
  Hypothesis Hxz : X <> Z.
  Hypothesis Hyz : Y <> Z.
  Hypothesis Hne : edge <> path_.
  Hypothesis Hedge : user_pred edge.
  Hypothesis Hpath : user_pred path_.
  Hypothesis Hae : arity edge = 2.
  Hypothesis Hap : arity path_ = 2.
  Hypothesis Htab : good_tables tables arity w.
  Hypothesis Hrules : lget L w = rulebase_of transitive.
  Hypothesis Hrows : tables w edge = Some rows.
  Hypothesis Hnone : tables w path_ = None.

  Notation db := (db_of tables w).
  Notation chain := (chain rows).
  Notation circular := (circular rows).
  Notation starts_circular := (starts_circular rows).

  Lemma db_edge : db edge = rows.
  Proof. unfold db_of. now rewrite Hrows. Qed.
  Lemma db_path : db path_ = [].
  Proof. unfold db_of. now rewrite Hnone. Qed.

  Lemma flat_transitive r : In r transitive -> flat_rule arity r /\ range_restricted r.
  Proof.
    assert (F : forall p x y, user_pred p -> arity p = 2 -> flat_atom arity (mkAtom p [VVar x; VVar y])).
    { intros p x y Hp Ha. split; [exact Hp|]. split; [cbn; now rewrite Ha|]. intros v [<-|[<-|[]]]; left; eauto. }
    intros [<-|[<-|[]]]; (split; [split; [apply F; auto|intros a [<-|H]; [apply F; auto|]]|]).
    - destruct H.
    - intros x Hx. eexists. split; [now left|]. exact Hx.
    - destruct H as [<-|[]]. apply F; auto.
    - intros x [[= <-]|[[= <-]|[]]].
      + eexists. split; [now left|]. now left.
      + eexists. split; [right; now left|]. right. now left.
  Qed.

  (** what the rules say *)
  Lemma edge_rows t : derivable db transitive edge t <-> In t rows.
  Proof.
    split.
    - intros H. remember edge as p eqn:Ep in H at 2. destruct H as [p u Hi|r s Hr Hs Hb]; [subst p; now rewrite db_edge in Hi|].
      destruct Hr as [<-|[<-|[]]]; cbn in Ep; congruence.
    - intros H. apply d_table. now rewrite db_edge.
  Qed.
  Lemma row_const x y : In [x; y] rows -> constant x = true /\ constant y = true.
  Proof.
    intros H. destruct (Htab edge rows Hrows _ H) as (_ & Hc). cbn in Hc. rewrite andb_true_r in Hc. now apply andb_true_iff in Hc.
  Qed.
  Lemma chain_const x y : chain x y -> constant x = true /\ constant y = true.
  Proof. intros H. induction H as [x y H|x z y H _ IH]; apply row_const in H; tauto. Qed.

  Definition at_ (x y z : value) : assignment :=
    fun n => if String.eqb n X then x else if String.eqb n Y then y else z.
  Lemma at_X x y z : at_ x y z X = x.
  Proof. unfold at_. now rewrite String.eqb_refl. Qed.
  Lemma at_Y x y z : at_ x y z Y = y.
  Proof. unfold at_. rewrite String.eqb_refl. destruct (String.eqb_spec Y X); congruence. Qed.
  Lemma at_Z x y z : at_ x y z Z = z.
  Proof. unfold at_. destruct (String.eqb_spec Z X); [congruence|]. destruct (String.eqb_spec Z Y); congruence. Qed.
  Lemma at_const x y z : constant x = true -> constant y = true -> constant z = true -> const_assignment (at_ x y z).
  Proof. intros Hx Hy Hz n. unfold at_. destruct (String.eqb n X); [assumption|]. destruct (String.eqb n Y); assumption. Qed.

  Lemma derivable_chain p t : derivable db transitive p t -> p = path_ -> exists x y, t = [x; y] /\ chain x y.
  Proof.
    intros H. induction H as [p t Hi|r s Hr Hs Hb IH]; intros Ep.
    - subst p. rewrite db_path in Hi. destruct Hi.
    - destruct Hr as [<-|[<-|[]]]; cbn [fr_head fa_args map inst]; exists (s X), (s Y); (split; [reflexivity|]).
      + apply one_row. apply edge_rows. apply (Hb (mkAtom edge [VVar X; VVar Y])). now left.
      + apply more_rows with (s Z).
        * apply edge_rows. apply (Hb (mkAtom edge [VVar X; VVar Z])). now left.
        * destruct (IH (mkAtom path_ [VVar Z; VVar Y])) as (x & y & E & Hc); [right; now left|reflexivity|].
          cbn in E. injection E as -> ->. exact Hc.
  Qed.
  Lemma chain_derivable x y : chain x y -> derivable db transitive path_ [x; y].
  Proof.
    intros H. induction H as [x y H|x z y H Hc IH].
    - pose proof (row_const x y H) as (Hx & Hy).
      pose proof (d_rule db transitive (mkFRule (mkAtom path_ [VVar X; VVar Y]) [mkAtom edge [VVar X; VVar Y]]) (at_ x y x)) as D.
      cbn [fr_head fr_body fa_args fa_pred map inst] in D. rewrite at_X, at_Y in D. apply D.
      + now left.
      + now apply at_const.
      + intros a [<-|[]]. cbn [fa_args fa_pred map inst]. rewrite at_X, at_Y. now apply edge_rows.
    - pose proof (row_const x z H) as (Hx & Hz). pose proof (chain_const z y Hc) as (_ & Hy).
      pose proof (d_rule db transitive (mkFRule (mkAtom path_ [VVar X; VVar Y]) [mkAtom edge [VVar X; VVar Z]; mkAtom path_ [VVar Z; VVar Y]]) (at_ x y z)) as D.
      cbn [fr_head fr_body fa_args fa_pred map inst] in D. rewrite at_X, at_Y in D. apply D.
      + right. now left.
      + now apply at_const.
      + intros a [<-|[<-|[]]]; cbn [fa_args fa_pred map inst]; rewrite at_Z, ?at_X, ?at_Y; [now apply edge_rows|exact IH].
  Qed.
  Lemma path_chains x y : derivable db transitive path_ [x; y] <-> chain x y.
  Proof.
    split; [|apply chain_derivable]. intros H. destruct (derivable_chain _ _ H eq_refl) as (x' & y' & E & Hc).
    injection E as -> ->. exact Hc.
  Qed.

  (** *** no circle *)
  Definition tmade (p : string) (c : call) : Prop :=
    p = path_ -> match c with o :: _ => ~ starts_circular o | _ => True end.
  Definition tlevel (p : string) (c : call) : nat :=
    if String.eqb p path_ then
      match c with Some x :: _ => S (height rows (top rows) x) | _ => S (S (top rows)) end
    else 0.

  Lemma tlevel_ok p c p' c' : tmade p c -> leads_to db transitive p c p' c' ->
    tmade p' c' /\ tlevel p' c' < tlevel p c.
  Proof.
    intros Hm [r s before a after Hr Hp Hs Hfit Hb Hsat Hpa Hask].
    assert (p = path_) as -> by (destruct Hr as [<-|[<-|[]]]; cbn in Hp; congruence).
    assert (Hpos : 0 < tlevel path_ c) by (unfold tlevel; rewrite String.eqb_refl; destruct c as [|[x|] c]; lia).
    assert (Hstep : p' = edge -> tmade p' c' /\ tlevel p' c' < tlevel path_ c).
    { intros ->. split; [intros E; congruence|]. unfold tlevel at 1. destruct (String.eqb_spec edge path_); [congruence|exact Hpos]. }
    destruct Hr as [<-|[<-|[]]]; cbn [fr_body fr_head] in *.
    - destruct before as [|a0 [|]]; [injection Hb as <- <-; now apply Hstep| |]; discriminate.
    - destruct before as [|a0 [|a1 [|]]]; [injection Hb as <- <-; now apply Hstep| | |]; try discriminate.
      injection Hb as <- <- <-. cbn in Hpa. subst p'. clear Hstep.
      assert (Hrow : In [s X; s Z] rows) by (apply edge_rows; apply (Hsat (mkAtom edge [VVar X; VVar Z])); now left).
      unfold asked in Hask. cbn [fa_args] in Hask. inversion Hask as [|? o1 ? c1 Ho1 Hc1]; subst.
      destruct Ho1 as [(_ & ->)|(Hn & _)].
      2:{ exfalso. apply Hn. right. eexists. split; [now left|]. right. now left. }
      unfold head_fits in Hfit. cbn [fa_args] in Hfit. inversion Hfit as [|? o2 ? c2 Ho2 Hc2]; subst.
      assert (Hno : ~ circular (s X)).
      { intros Hc. apply (Hm eq_refl). destruct o2 as [v|]; cbn; [|now exists (s X)]. rewrite <- (Ho2 v eq_refl). exact Hc. }
      assert (Hnz : ~ circular (s Z)) by (intros Hc; apply Hno; eapply circular_back; eauto).
      split; [intros _; exact Hnz|]. unfold tlevel. rewrite String.eqb_refl. pose proof (height_bound rows (top rows) (s Z)).
      destruct o2 as [v|]; [|lia]. rewrite <- (Ho2 v eq_refl). apply -> Nat.succ_lt_mono. exact (height_descends rows (s X) (s Z) Hrow Hno).
  Qed.

  Lemma transitive_ends t1 t2 b n : flat_arg t1 -> flat_arg t2 -> const_binding b ->
    ~ starts_circular (start b t1) ->
    exists l, solve (dl_mods L tables) (n + (4 + length rows)) (VList [atom_value (mkAtom path_ [t1; t2])]) b w = (Ok (SList l), w).
  Proof.
    intros H1 H2 Hb Hno.
    pose proof (descending_ends L tables arity transitive w Htab Hrules (fun r H => proj1 (flat_transitive r H)) tmade tlevel tlevel_ok) as D.
    replace (n + (4 + length rows)) with (S (n + (2 + top rows))) by (unfold top; lia).
    apply (D) with (q := [mkAtom path_ [t1; t2]]); auto.
    - intros r a [<-|[<-|[]]] Ha; cbn in Ha.
      + destruct Ha as [<-|[]]. left. cbn. congruence.
      + destruct Ha as [<-|[<-|[]]]; [left; cbn; congruence|]. right. eexists. split; [now left|reflexivity].
    - intros a [<-|[]]. split; [exact Hpath|]. split; [cbn; now rewrite Hap|]. intros v [<-|[<-|[]]]; assumption.
    - intros p c [s before a after Eq Hs Hag Hsat Hpa Hask]. destruct before as [|a0 [|]]; try discriminate.
      injection Eq as <- <-. cbn in Hpa. subst p. unfold asked in Hask. cbn [fa_args] in Hask. inversion Hask as [|? o1 ? c1 Ho1 Hc1]; subst.
      assert (o1 = start b t1) as ->.
      { destruct t1; auto; cbn [start]; destruct Ho1 as [([Hk|(z & [] & _)] & ->)|(Hk & ->)].
        - destruct (bget name b) as [v|] eqn:E; [|congruence]. now rewrite (Hag _ _ E).
        - destruct (bget name b) eqn:E; [|reflexivity]. exfalso. apply Hk. left. congruence. }
      split; [intros _; exact Hno|]. unfold tlevel. rewrite String.eqb_refl.
      unfold start. pose proof (fun x => height_bound rows (top rows) x) as Hh.
      destruct t1 as [| | | | |x| | | |]; try (match goal with |- context [height _ _ ?v] => specialize (Hh v) end; lia).
      destruct (bget x b) as [v|]; [specialize (Hh v)|]; lia.
    - intros a [<-|[]]. right. eexists. split; [now left|reflexivity].
  Qed.

  (** *** a circle *)
  Definition tendless (p : string) (c : call) : Prop :=
    p = path_ /\ exists o1 o2, c = [o1; o2] /\ starts_circular o1 /\
      (forall v, o1 = Some v -> constant v = true) /\ (forall v, o2 = Some v -> constant v = true).

  Lemma tendless_ok p c : tendless p c -> exists p' c', leads_to db transitive p c p' c' /\ tendless p' c'.
  Proof.
    intros (-> & o1 & o2 & -> & Hst & Hc1 & Hc2).
    assert (exists x, circular x /\ (forall v, o1 = Some v -> x = v)) as (x & Hx & Ho1).
    { destruct o1 as [v|]; [exists v; split; [exact Hst|congruence]|]. destruct Hst as (x & Hx). exists x. split; [exact Hx|discriminate]. }
    destruct (circular_next rows x Hx) as (z & Hr & Hz). pose proof (row_const x z Hr) as (Kx & Kz).
    set (y := match o2 with Some v => v | None => x end).
    assert (Ky : constant y = true) by (unfold y; destruct o2; auto).
    exists path_, [Some z; o2]. split.
    - apply (leads db transitive _ _ _ _ (mkFRule (mkAtom path_ [VVar X; VVar Y]) [mkAtom edge [VVar X; VVar Z]; mkAtom path_ [VVar Z; VVar Y]])
        (at_ x y z) [mkAtom edge [VVar X; VVar Z]] (mkAtom path_ [VVar Z; VVar Y]) []); auto.
      + right. now left.
      + now apply at_const.
      + unfold head_fits. cbn [fr_head fa_args]. constructor; [intros v ->; cbn; rewrite at_X; now apply Ho1|].
        constructor; [|constructor]. intros v ->. cbn. now rewrite at_Y.
      + intros a [<-|[]]. cbn [fa_args fa_pred map inst]. rewrite at_X, at_Z. now apply edge_rows.
      + unfold asked. cbn [fr_head fa_args]. constructor; [|constructor; [|constructor]].
        * left. split; [right; eexists; split; [now left|right; now left]|now rewrite at_Z].
        * destruct o2 as [v|] eqn:E.
          -- left. split; [left; exists 1, v; now split|]. rewrite at_Y. reflexivity.
          -- right. split; [|reflexivity]. intros [(i & v & E1 & E2)|(a & [<-|[]] & Hy)].
             ++ destruct i as [|[|i]]; cbn in E1, E2; [injection E1 as E1; congruence|discriminate|destruct i; discriminate].
             ++ destruct Hy as [Hy|[Hy|[]]]; injection Hy; congruence.
    - split; [reflexivity|]. exists (Some z), o2. split; [reflexivity|]. split; [exact Hz|]. split; [|exact Hc2]. intros v [= <-]. exact Kz.
  Qed.

  Lemma transitive_endless t1 t2 b : flat_arg t1 -> flat_arg t2 -> const_binding b ->
    starts_circular (start b t1) ->
    forall n res w', solve (dl_mods L tables) n (VList [atom_value (mkAtom path_ [t1; t2])]) b w <> (Ok res, w').
  Proof.
    intros H1 H2 Hb Hst.
    assert (Hfl : flat_atom arity (mkAtom path_ [t1; t2])).
    { split; [exact Hpath|]. split; [cbn; now rewrite Hap|]. intros v [<-|[<-|[]]]; assumption. }
    apply (endless_never_ends L tables arity transitive w Htab Hrules (fun r H => proj1 (flat_transitive r H))
      (fun r H => proj2 (flat_transitive r H)) tendless tendless_ok [mkAtom path_ [t1; t2]] b path_ (pat b [t1; t2])).
    - intros a [<-|[]]. exact Hfl.
    - exact Hb.
    - apply (begin db transitive _ _ _ _ (asg b) [] (mkAtom path_ [t1; t2]) []); auto.
      + now apply asg_const.
      + intros x v Hx. unfold asg. now rewrite Hx.
      + intros a [].
      + apply asked_pat; [apply Hfl| |intros x v Hx _; unfold asg; now rewrite Hx].
        intros x _. split; [intros [H|(z & [] & _)]; exact H|auto].
    - assert (Hc : forall t v, flat_arg t -> match t with VVar x => bget x b | _ => Some t end = Some v -> constant v = true).
      { intros t v [(x & ->)|Hc] E; [now apply (Hb x)|]. destruct t; try discriminate Hc; injection E as <-; exact Hc. }
      split; [reflexivity|]. eexists. eexists. split; [reflexivity|]. split; [exact Hst|]. split; intros v E; [exact (Hc t1 v H1 E)|exact (Hc t2 v H2 E)].
  Qed.
End Transitive.
