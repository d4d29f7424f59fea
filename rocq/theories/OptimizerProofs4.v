(** * Isolating independent parts keeps the answers *)

From Coq Require Import ZArith String List Bool Permutation Lia Arith.
From Verif Require Import Py PyFacts ReprProofs Effects EffectsFacts Solver SolverSpec SolverProofs SolverProofs2
  MatchProofs Atoms AtomsFacts CoreModule CoreSpec CoreProofs InferenceModule TableModule
  DatalogSpec DatalogProofs DatalogProofs2 DatalogThms Earley Composer
  Optimizer OptimizerSpec OptimizerProofs OptimizerProofs2 OptimizerProofs3.
Import ListNotations.
Local Open Scope nat_scope.
Local Open Scope string_scope.
Local Open Scope list_scope.

Definition vset := string -> Prop.
Definition same_on (B : vset) (s s' : assignment) : Prop := forall x, B x -> s' x = s x.
Definition union (A B : vset) : vset := fun x => A x \/ B x.
Definition local (B : vset) (P : assignment -> Prop) : Prop :=
  forall s s', same_on B s s' -> P s -> P s'.

Section Answers.
  Context {W : Type}.
  Variable L : lens W rulebase.
  Variable tables : W -> string -> option (list (list value)).
  Variable arity : string -> nat.
  Variable rules : list frule.
  Variable w : W.
  Hypothesis Htab : good_tables tables arity w.
  Hypothesis Hrules : lget L w = rulebase_of rules.
  Hypothesis Hflat : forall r, In r rules -> flat_rule arity r /\ range_restricted r.
  Variable rank : string -> nat.
  Hypothesis Hrank : hierarchical tables rules w rank.
  Hypothesis Hscoped : tables w "scoped" = None.

  Notation mods := (dl_mods L tables).
  Notation db := (db_of tables w).

  (** [computes m vs B D P]: from every binding of exactly the variables [B],
      solving [vs] answers with bindings of [B] and [D], which are the
      assignments with [P] *)
  Record answers_of (b : binding) (D : vset) (P : assignment -> Prop) (l : list binding) : Prop := {
    an_const : forall r, In r l -> const_binding r;
    an_ext : forall r, In r l -> extends b r;
    an_bound : forall r x, In r l -> D x -> bget x r <> None;
    an_dom : forall r x, In r l -> bget x r <> None -> bget x b <> None \/ D x;
    an_sound : forall r, In r l -> P (asg r);
    an_complete : forall s, const_assignment s -> agrees s b -> P s -> exists r, In r l /\ agrees s r
  }.
  Definition computes (m : nat) (vs : list value) (B D : vset) (P : assignment -> Prop) : Prop :=
    forall b, const_binding b -> (forall x, bget x b <> None <-> B x) ->
      exists l, solve mods (S m) (VList vs) b w = (Ok (SList l), w) /\ answers_of b D P l.

  Lemma computes_iff m vs B B' D D' P P' :
    (forall x, B x <-> B' x) -> (forall x, D x <-> D' x) ->
    (forall s, const_assignment s -> (P s <-> P' s)) ->
    computes m vs B D P -> computes m vs B' D' P'.
  Proof.
    intros HB HD HP H b Hb HbB. destruct (H b Hb) as (l & Hl & [A1 A2 A3 A4 A5 A6]).
    - intros x. now rewrite HB.
    - exists l. split; auto. constructor; auto.
      + intros r x Hr Hx. apply A3; auto. now apply HD.
      + intros r x Hr Hx. destruct (A4 r x Hr Hx); auto. right. now apply HD.
      + intros r Hr. apply HP; auto. now apply asg_const, A1.
      + intros s Hs Ha Hp. apply A6; auto. now apply HP.
  Qed.

  Lemma asg_same b r : extends b r -> same_on (fun x => bget x b <> None) (asg b) (asg r).
  Proof. intros H x Hx. unfold asg. destruct (bget x b) eqn:E; [|congruence]. now rewrite (H _ _ E). Qed.

  Lemma computes_nil m B : computes m [] B (fun _ => False) (fun _ => True).
  Proof.
    intros b Hb HbB. exists [b]. split; [reflexivity|]. constructor.
    - intros r [<-|[]]; auto.
    - intros r [<-|[]]. apply extends_refl.
    - intros r x _ [].
    - intros r x [<-|[]] H. auto.
    - auto.
    - intros s _ Ha _. exists b. split; [now left|auto].
  Qed.

  Lemma computes_cons m v rest B D1 D2 P1 P2 :
    computes m [v] B D1 P1 -> computes m rest (union B D1) D2 P2 -> local (union B D1) P1 ->
    computes m (v :: rest) B (union D1 D2) (fun s => P1 s /\ P2 s).
  Proof.
    intros H1 H2 Hloc. destruct rest as [|v2 rest].
    { intros b Hb HbB. destruct (H1 b Hb HbB) as (l & Hl & [A1 A2 A3 A4 A5 A6]). exists l. split; auto.
      assert (Hd : forall r, In r l -> forall x, bget x r <> None <-> union B D1 x).
      { intros r Hr x. split.
        - intros Hx. destruct (A4 r x Hr Hx); [left; now apply HbB|now right].
        - intros [Hx|Hx]; [|now apply A3]. apply HbB in Hx. destruct (bget x b) eqn:E; [|congruence].
          rewrite (A2 r Hr _ _ E). discriminate. }
      assert (Hn : forall r, In r l -> (forall x, D2 x -> bget x r <> None) /\ P2 (asg r) ).
      { intros r Hr. destruct (H2 r (A1 r Hr) (Hd r Hr)) as (l2 & Hl2 & [C1 C2 C3 C4 C5 C6]).
        injection Hl2 as <-. split; [intros x; apply C3; now left|apply C5; now left]. }
      constructor; auto.
      - intros r x Hr [Hx|Hx]; [now apply A3|now apply Hn].
      - intros r x Hr Hx. destruct (A4 r x Hr Hx); auto. right. now left.
      - intros r Hr. split; [now apply A5|now apply Hn].
      - intros s Hs Ha [Hp _]. now apply A6. }
    intros b Hb HbB. destruct (H1 b Hb HbB) as (l & Hl & [A1 A2 A3 A4 A5 A6]).
    assert (Hd : forall r, In r l -> forall x, bget x r <> None <-> union B D1 x).
    { intros r Hr x. split.
      - intros Hx. destruct (A4 r x Hr Hx); [left; now apply HbB|now right].
      - intros [Hx|Hx]; [|now apply A3]. apply HbB in Hx. destruct (bget x b) eqn:E; [|congruence].
        rewrite (A2 r Hr _ _ E). discriminate. }
    unfold solve in *. cbn [solver_at sv_solve solve_F] in *. unfold solve_F in *.
    set (sv := solver_at mods m) in *.
    assert (Hrest : forall r, In r l -> exists l2,
      solve_atoms mods sv (v2 :: rest) r w = (Ok (SList l2), w) /\ answers_of r D2 P2 l2).
    { intros r Hr. destruct (H2 r (A1 r Hr) (Hd r Hr)) as (l2 & Hl2 & G). exists l2. auto. }
    assert (F : forall bs acc, (forall r, In r bs -> In r l) ->
      exists res, foldM (conj_step mods sv (v2 :: rest)) acc bs w = (Ok res, w)).
    { induction bs as [|r bs IH]; intros acc Hbs; [eexists; reflexivity|].
      cbn [foldM]. destruct (Hrest r) as (l2 & Hl2 & _); [apply Hbs; now left|].
      erewrite bind_ok_intro.
      2:{ unfold conj_step. erewrite bind_ok_intro by exact Hl2. reflexivity. }
      apply IH. intros; apply Hbs; now right. }
    destruct (F l [] (fun r H => H)) as (res & Hres).
    exists res. split.
    { rewrite solve_atoms_cons. erewrite bind_ok_intro by exact Hl. simpl sres_items.
      erewrite bind_ok_intro by reflexivity. erewrite bind_ok_intro by exact Hres. reflexivity. }
    apply (conj_fold_inv L tables w) in Hres as (_ & R1 & _ & R2).
    2:{ intros b' rr w1 Hb' Hrr. destruct (Hrest b' Hb') as (l2 & Hl2 & _). rewrite Hl2 in Hrr.
        injection Hrr as <- <-. eauto. }
    assert (R1' : forall r, In r res -> exists b' l2, In b' l /\ In r l2 /\ answers_of b' D2 P2 l2).
    { intros r Hr. apply R1 in Hr as [[]|(b' & l2 & Hb' & Hl2 & Hr)].
      destruct (Hrest b' Hb') as (l2' & Hl2' & G). rewrite Hl2 in Hl2'. injection Hl2' as <-. eauto. }
    clear R1.
    assert (Hc : forall r, In r res -> const_binding r).
    { intros r Hr. destruct (R1' r Hr) as (b' & l2 & Hb' & Hr2 & G). now apply (an_const _ _ _ _ G). }
    constructor; auto.
    - intros r Hr. destruct (R1' r Hr) as (b' & l2 & Hb' & Hr2 & G).
      intros k u Hk. apply (an_ext _ _ _ _ G r Hr2). now apply A2.
    - intros r x Hr Hx. destruct (R1' r Hr) as (b' & l2 & Hb' & Hr2 & G). destruct Hx as [Hx|Hx].
      + pose proof (A3 b' x Hb' Hx) as Hx'. destruct (bget x b') eqn:E; [|congruence].
        rewrite (an_ext _ _ _ _ G r Hr2 _ _ E). discriminate.
      + now apply (an_bound _ _ _ _ G).
    - intros r x Hr Hx. destruct (R1' r Hr) as (b' & l2 & Hb' & Hr2 & G).
      destruct (an_dom _ _ _ _ G r x Hr2 Hx) as [Hx'|Hx']; [|right; now right].
      destruct (A4 b' x Hb' Hx'); auto. right. now left.
    - intros r Hr. destruct (R1' r Hr) as (b' & l2 & Hb' & Hr2 & G). split.
      + apply (Hloc (asg b') (asg r)); [|now apply A5].
        intros x Hx. apply (asg_same b' r); [now apply (an_ext _ _ _ _ G)|]. now apply Hd.
      + now apply (an_sound _ _ _ _ G).
    - intros s Hs Ha [Hp1 Hp2]. destruct (A6 s Hs Ha Hp1) as (b' & Hb' & Ha').
      destruct (Hrest b' Hb') as (l2 & Hl2 & G).
      destruct (an_complete _ _ _ _ G s Hs Ha' Hp2) as (r & Hr & Har).
      destruct (mem_const r res (an_const _ _ _ _ G r Hr) Hc (R2 b' l2 r Hb' Hl2 Hr)) as (r' & Hr' & E).
      exists r'. split; auto. intros k u Hk. apply Har. now rewrite <- E.
  Qed.

  (** ** flat atoms *)

  Definition sat (a : fatom) (s : assignment) : Prop := derivable db rules (fa_pred a) (map (inst s) (fa_args a)).
  Definition known_to (m : nat) (q : list fatom) : Prop :=
    forall a, In a q -> rank (fa_pred a) <= m /\ DatalogProofs2.known tables rules w (fa_pred a).

  Lemma inst_same (a : fatom) s s' : same_on (fun x => fvar x a) s s' -> map (inst s') (fa_args a) = map (inst s) (fa_args a).
  Proof. intros H. apply map_ext_in. intros v Hv. destruct v; auto. cbn. now apply H. Qed.
  Lemma sat_local a (B : vset) : (forall x, fvar x a -> B x) -> local B (sat a).
  Proof. intros HB s s' Hs H. unfold sat. rewrite (inst_same a s s'); auto. intros x Hx. auto. Qed.

  Lemma computes_atom m a B : flat_atom arity a -> known_to m [a] -> computes m [atom_value a] B (fun x => fvar x a) (sat a).
  Proof.
    intros Hf Hk b Hb HbB.
    assert (Hfl : forall r, In r rules -> flat_rule arity r) by (intros r Hr; now apply Hflat).
    assert (Hfq : flat_atoms arity [a]) by (intros a' [<-|[]]; auto).
    destruct (datalog_terminates L tables arity rules w Htab Hrules Hfl rank m [a] b) as (l & Hl); auto.
    exists l. split; [exact Hl|].
    pose proof Hl as Hs. apply (solver_sound L tables arity rules w Htab Hrules Hfl) in Hs as (_ & l' & [= <-] & A); auto.
    assert (Hv : forall x, fvars x [a] <-> fvar x a).
    { intros x. split; [intros (a' & [<-|[]] & Hx); auto|intros Hx; exists a; split; [now left|auto]]. }
    constructor.
    - intros r Hr. apply (A r Hr).
    - intros r Hr. apply (A r Hr).
    - intros r x Hr Hx. apply (A r Hr). now apply Hv.
    - intros r x Hr Hx. destruct (gr_dom _ _ _ _ _ _ (A r Hr) x Hx); auto. right. now apply Hv.
    - intros r Hr. apply (gr_sat _ _ _ _ _ _ (A r Hr)). now left.
    - intros s Hs Ha Hsat.
      destruct (datalog_complete L tables arity rules w Htab Hrules Hfl (S m) [a] b l w) with (s := s) as (r & Hr & Han); auto.
      + intros r Hr. now apply Hflat.
      + intros a' [<-|[]]. exact Hsat.
      + exists r. split; auto. intros x v Hx. destruct (Han x) as [H1 H2].
        destruct (gr_dom _ _ _ _ _ _ (A r Hr) x); [congruence| |]; rewrite H1 in Hx by auto; congruence.
  Qed.

  Lemma computes_prefix m q : forall rest B D P, flat_atoms arity q -> known_to m q ->
    computes m rest (union B (fun x => fvars x q)) D P ->
    computes m (map atom_value q ++ rest) B (union (fun x => fvars x q) D) (fun s => satisfies db rules s q /\ P s).
  Proof.
    induction q as [|a q IH]; intros rest B D P Hf Hk H.
    - eapply computes_iff; [| | |exact H].
      + intros x. split; [intros [Hx|(a & [] & _)]; auto|now left].
      + intros x. split; [now right|intros [(a & [] & _)|Hx]; auto].
      + intros s Hs. split; [intros Hp; split; auto; intros a []|tauto].
    - cbn [map app].
      eapply computes_iff with (D := union (fun x => fvar x a) (union (fun x => fvars x q) D))
        (P := fun s => sat a s /\ (satisfies db rules s q /\ P s)) (B := B); [reflexivity| | |].
      + intros x. split.
        * intros [Hx|[(a' & Ha & Hx)|Hx]]; [left; exists a; split; [now left|auto]|left; exists a'; split; [now right|auto]|now right].
        * intros [(a' & [<-|Ha] & Hx)|Hx]; [now left|right; left; exists a'; auto|right; now right].
      + intros s Hs. split.
        * intros (Ha & Hq & Hp). split; auto. intros a' [<-|Ha']; auto.
        * intros (Hq & Hp). split; [apply Hq; now left|]. split; auto. intros a' Ha'. apply Hq. now right.
      + apply computes_cons.
        * apply computes_atom; [apply Hf; now left|]. intros a' [<-|[]]. apply Hk. now left.
        * apply IH; [intros a' Ha'; apply Hf; now right|intros a' Ha'; apply Hk; now right|].
          eapply computes_iff; [| | |exact H]; [|reflexivity|reflexivity].
          intros x. split.
          -- intros [Hx|(a' & [<-|Ha'] & Hx)]; [left; now left|left; now right|right; exists a'; auto].
          -- intros [[Hx|Hx]|(a' & Ha' & Hx)]; [now left|right; exists a; split; [now left|auto]|right; exists a'; split; [now right|auto]].
        * apply sat_local. intros x Hx. now right.
  Qed.

  (** ** scopes *)

  Lemma rulebase_none p : (forall r, In r rules -> fa_pred (fr_head r) <> p) -> rules_get p (rulebase_of rules) = None.
  Proof.
    intros H. destruct (rules_get p (rulebase_of rules)) as [rs|] eqn:E; auto. exfalso.
    assert (G : forall rls rb, (forall r, In r rls -> fa_pred (fr_head r) <> p) -> rules_get p rb = None ->
       rules_get p (fold_left (fun rb r => rules_add (fa_pred (fr_head r)) (to_rule r) rb) rls rb) = None).
    { induction rls as [|r rls IHr]; intros rb Hr Hrb; cbn [fold_left]; auto.
      apply IHr; [intros; apply Hr; now right|]. rewrite rules_add_get.
      destruct (String.eqb_spec p (fa_pred (fr_head r))) as [Ep|]; auto. exfalso. apply (Hr r); [now left|auto]. }
    unfold rulebase_of in E. rewrite G in E; auto. discriminate.
  Qed.

  Lemma scoped_core : only_core mods w "scoped".
  Proof.
    exists [inference_module L; table_module tables]. split; [reflexivity|].
    intros m [<-|[<-|[]]].
    - unfold inference_module. rewrite Hrules, rulebase_none; auto.
      intros r Hr E. destruct (Hflat r Hr) as [[[[Hu _] _] _] _]. rewrite E in Hu. discriminate.
    - unfold table_module. now rewrite Hscoped.
  Qed.

  Lemma computes_scoped m body B D P : computes m body B D P ->
    computes (S m) [VTuple [VStr "scoped"; VList body]] B (fun _ => False)
      (fun s => exists s', const_assignment s' /\ same_on B s s' /\ P s').
  Proof.
    intros H b Hb HbB. destruct (H b Hb HbB) as (l & Hl & [A1 A2 A3 A4 A5 A6]).
    rewrite (solve_scoped mods (S m) body b w scoped_core), Hl. unfold after. cbn [sres_len].
    eexists. split; [reflexivity|].
    assert (E : l = [] \/ exists r, In r l) by (destruct l as [|r l]; [now left|right; exists r; now left]).
    destruct E as [->|(r & Hr)].
    - cbn [length]. constructor; try (intros r []; fail).
      + intros r x [].
      + intros r x [].
      + intros s _ Ha (s' & Hs' & Hsame & Hp). destruct (A6 s') as (r & [] & _); auto.
        intros x v Hx. rewrite Hsame; [now apply Ha|]. apply HbB. congruence.
    - destruct (length l) eqn:El; [destruct l; [destruct Hr|discriminate]|].
      constructor.
      + intros r' [<-|[]]; auto.
      + intros r' [<-|[]]. apply extends_refl.
      + intros r' x _ [].
      + intros r' x [<-|[]] Hx. auto.
      + intros r' [<-|[]]. exists (asg r). split; [now apply asg_const, A1|]. split; [|now apply A5].
        intros x Hx. apply (asg_same b r); [now apply A2|now apply HbB].
      + intros s _ Ha _. exists b. split; [now left|auto].
  Qed.

  (** ** the isolated query *)

  Definition proj (B : vset) (q : list fatom) (s : assignment) : Prop :=
    exists s', const_assignment s' /\ same_on B s s' /\ satisfies db rules s' q.

  Lemma proj_local B q : local B (proj B q).
  Proof.
    intros s s' Hs (s1 & Hc & H1 & H2). exists s1. split; auto. split; auto. intros x Hx. rewrite (Hs x Hx). auto.
  Qed.
  Lemma satisfies_same q s s' : same_on (fun x => fvars x q) s s' -> satisfies db rules s q -> satisfies db rules s' q.
  Proof.
    intros Hs H a Ha. rewrite (inst_same a s s'); [now apply H|]. intros x Hx. apply Hs. exists a. auto.
  Qed.

  Lemma fvars_app x q q' : fvars x (q ++ q') <-> fvars x q \/ fvars x q'.
  Proof.
    split.
    - intros (a & Ha & Hx). rewrite in_app_iff in Ha. destruct Ha; [left|right]; exists a; auto.
    - intros [(a & Ha & Hx)|(a & Ha & Hx)]; exists a; rewrite in_app_iff; auto.
  Qed.
  Lemma fvars_dec x q : {fvars x q} + {~ fvars x q}.
  Proof.
    destruct (in_var_dec x (flat_map fa_args q)) as [H|H].
    - left. apply in_flat_map in H as (a & Ha & Hx). exists a. auto.
    - right. intros (a & Ha & Hx). apply H. apply in_flat_map. exists a. auto.
  Qed.

  Lemma proj_merge (B d1 d2 : vset) (H g q : list fatom) s :
    (forall x, fvars x H -> B x) -> (forall x, d1 x -> fvars x g) -> (forall x, d2 x -> fvars x q) ->
    (forall x, fvars x g -> fvars x q -> fvars x H) ->
    proj (union B d1) g s -> proj (union (union B d1) d2) q s -> proj (union B (union d1 d2)) (g ++ q) s.
  Proof.
    intros HB Hd1 Hd2 Hdis (s1 & C1 & S1 & Q1) (s2 & C2 & S2 & Q2).
    exists (fun x => if fvars_dec x g then if fvars_dec x H then s2 x else s1 x else s2 x). repeat split.
    - intros x. destruct (fvars_dec x g); [destruct (fvars_dec x H)|]; auto.
    - intros x Hx.
      assert (E2 : s2 x = s x) by (apply S2; destruct Hx as [Hx|[Hx|Hx]]; [left; now left|left; now right|now right]).
      destruct (fvars_dec x g) as [Hg|]; auto. destruct (fvars_dec x H) as [|Hn]; auto.
      destruct Hx as [Hx|[Hx|Hx]]; [apply S1; now left|apply S1; now right|].
      exfalso. apply Hn, Hdis; auto.
    - intros a Ha. rewrite in_app_iff in Ha. destruct Ha as [Ha|Ha].
      + eapply (satisfies_same g s1); [|exact Q1|exact Ha]. intros x Hx.
        destruct (fvars_dec x g); [|contradiction]. destruct (fvars_dec x H) as [Hh|]; auto.
        rewrite (S2 x), (S1 x); auto; left; auto. left; auto.
      + eapply (satisfies_same q s2); [|exact Q2|exact Ha]. intros x Hx.
        destruct (fvars_dec x g) as [Hg|]; auto. destruct (fvars_dec x H) as [Hh|Hn]; auto.
        exfalso. apply Hn, Hdis; auto.
  Qed.
  Lemma proj_split (B d1 d2 : vset) (g q : list fatom) s :
    proj (union B (union d1 d2)) (g ++ q) s -> proj (union B d1) g s /\ proj (union (union B d1) d2) q s.
  Proof.
    intros (s' & C & S & Q). split; exists s'; (split; [exact C|split]).
    - intros x [Hx|Hx]; apply S; [now left|right; now left].
    - intros a Ha. apply Q, in_app_iff. auto.
    - intros x [[Hx|Hx]|Hx]; apply S; [now left|right; now left|right; now right].
    - intros a Ha. apply Q, in_app_iff. auto.
  Qed.
  Lemma proj_sets B q q' s : (forall a, In a q <-> In a q') -> proj B q s -> proj B q' s.
  Proof. intros E (s' & C & S & Q). exists s'. split; auto. split; auto. intros a Ha. apply Q, E, Ha. Qed.

  (** ** atoms as values *)

  Lemma flat_arg_eq u v : flat_arg u -> flat_arg v -> py_eq u v = true -> u = v.
  Proof.
    intros Hu Hv E. destruct (flat_arg_cases u Hu) as [[x ->]|[_ Pu]], (flat_arg_cases v Hv) as [[y ->]|[_ Pv]].
    - cbn in E. apply String.eqb_eq in E. now subst.
    - destruct v; discriminate.
    - destruct u; discriminate.
    - now apply py_eq_plain.
  Qed.
  Lemma atom_value_eq a a' : flat_atom arity a -> flat_atom arity a' -> py_eq (atom_value a) (atom_value a') = true -> a = a'.
  Proof.
    intros (_ & _ & Ha) (_ & _ & Ha') E. destruct a as [p args], a' as [p' args']. unfold atom_value in E. cbn [fa_pred fa_args] in *.
    rewrite py_eq_tuple in E. cbn [forall2b] in E. apply andb_true_iff in E as [E1 E2].
    cbn in E1. apply String.eqb_eq in E1. subst p'. f_equal.
    revert args' Ha' E2. induction args as [|u args IH]; intros [|v args'] Ha' E2; try discriminate; auto.
    cbn [forall2b] in E2. apply andb_true_iff in E2 as [E2 E3]. f_equal.
    - apply flat_arg_eq; auto; [apply Ha|apply Ha']; now left.
    - apply IH; auto; intros; [apply Ha|apply Ha']; now right.
  Qed.
  Lemma atom_value_inj a a' : atom_value a = atom_value a' -> a = a'.
  Proof. destruct a, a'. unfold atom_value. cbn. intros E. now inversion E. Qed.
  Lemma in_map_atom a q : In (atom_value a) (map atom_value q) <-> In a q.
  Proof.
    split; [|apply in_map]. intros H. apply in_map_iff in H as (a' & E & Ha'). apply atom_value_inj in E. now subst.
  Qed.
  Lemma atom_value_vars a x : flat_atom arity a -> (In x (atom_variables (atom_value a)) <-> fvar x a).
  Proof.
    intros (_ & _ & Ha). unfold atom_value, fvar. rewrite atom_variables_tuple. rewrite <- (flat_vars (fa_args a) x Ha). split.
    - intros (v & [<-|Hv] & Hx); [destruct Hx|eauto].
    - intros (v & Hv & Hx). exists v. split; [now right|auto].
  Qed.

  Lemma choose_atoms (l : list value) q : (forall v, In v l -> In v (map atom_value q)) ->
    exists g, l = map atom_value g /\ forall a, In a g -> In a q.
  Proof.
    induction l as [|v l IH]; intros H; [exists []; split; [reflexivity|intros a []]|].
    destruct IH as (g & -> & Hg); [intros; apply H; now right|].
    destruct (proj1 (in_map_iff _ _ _) (H v (or_introl eq_refl))) as (a & <- & Ha).
    exists (a :: g). split; [reflexivity|]. intros a' [<-|Ha']; auto.
  Qed.

  Lemma isolate_computes n : forall q roots r m R,
    flat_atoms arity q -> known_to R q -> R + n <= m ->
    isolate_from n (map atom_value q) roots = Ok r ->
    exists D : vset, (forall x, D x -> fvars x q) /\ (forall x, In x roots -> fvars x q -> D x) /\
      forall B, computes m r B D (proj (union B D) q).
  Proof.
    induction n as [|n IH]; intros q roots r m R Hf Hk Hm H; destruct q as [|h rest]; cbn [map isolate_from] in H; try discriminate.
    1,2: inversion H; subst; exists (fun _ => False); split; [intros x []|]; split; [intros x _ (a & [] & _)|]; intros B;
      eapply computes_iff; [| | |apply (computes_nil m B)]; try reflexivity;
      intros s Hs; split; auto; intros _; exists s; split; [exact Hs|]; split; [intros x _; reflexivity|intros a []].
    destruct m as [|m]; [lia|].
    assert (Hh : flat_atom arity h) by (apply Hf; now left).
    assert (Hfr : flat_atoms arity rest) by (intros a Ha; apply Hf; now right).
    assert (Hkm : known_to (S m) (h :: rest)) by (intros a Ha; destruct (Hk a Ha); split; auto; lia).
    destruct (collect_batches_raw (map atom_value rest) (atom_variables (atom_value h))) as (raw & Hraw & Hp & Ho & Hapart).
    rewrite Hraw in H. cbn [obind] in H.
    apply obind_ok in H as (parts & Hparts & H). inversion H; subst. clear H.
    apply omap_ok in Hparts.
    assert (Hin : forall b v, In b raw -> In v (b_atoms b) -> In v (map atom_value rest)).
    { intros b v Hb Hv. apply (Permutation_in _ (Permutation_sym Hp)). eapply in_all_atoms; eauto. }
    set (group := fun b : batch => flat_map (picked (b_atoms b)) (map atom_value rest)).
    assert (Hgroup : forall b, In b raw -> exists g, group b = map atom_value g /\
      (forall a, In a g <-> In (atom_value a) (b_atoms b)) /\ forall a, In a g -> In a rest).
    { intros b Hb. destruct (choose_atoms (group b) rest) as (g & Eg & Hg).
      { intros v Hv. apply restored_In in Hv. now apply (Hin b). }
      exists g. split; auto. split; auto. intros a. rewrite <- (in_map_atom a g), <- Eg. split.
      - apply restored_In.
      - intros Ha. destruct (restored_all (map atom_value rest) (b_atoms b) (atom_value a)) as (v & Hv & E); auto.
        { intros x; now apply Hin. }
        pose proof Hv as Hv'. apply restored_In in Hv'. apply (Hin b) in Hv'; auto.
        apply in_map_iff in Hv' as (a' & <- & Ha'). apply (Hin b) in Ha; auto. apply in_map_atom in Ha.
        apply atom_value_eq in E; auto. now subst. }
    assert (Hvars : forall b x, In b raw -> In x (b_variables b) <->
      (exists a, In (atom_value a) (b_atoms b) /\ fvar x a) /\ ~ fvar x h).
    { intros b x Hb. destruct (Ho b Hb) as (Hv & _). rewrite (Hv x). unfold vars_of.
      rewrite (atom_value_vars h x Hh). split.
      - intros [(v & Hva & Hx) Hn]. split; auto. pose proof Hva as Hva'. apply (Hin b) in Hva'; auto.
        apply in_map_iff in Hva' as (a & <- & Ha). exists a. split; auto. apply atom_value_vars in Hx; auto.
      - intros [(a & Ha & Hx) Hn]. split; auto. exists (atom_value a). split; auto.
        apply atom_value_vars; auto. apply (Hin b) in Ha; auto. apply in_map_atom in Ha. auto. }
    assert (G : forall bs parts, (forall b, In b bs -> In b raw) -> apart bs ->
      Forall2 (fun x y => (if share (b_variables x) roots then Ok (b_atoms x)
         else obind (isolate_from n (b_atoms x) []) (fun recursed => Ok [VTuple [VStr "scoped"; VList recursed]])) = Ok y)
        (map (restore_atom_order (map atom_value rest)) bs) parts ->
      exists qs, (forall a, In a qs <-> exists b, In b bs /\ In (atom_value a) (b_atoms b)) /\
        exists D : vset, (forall x, D x -> fvars x qs) /\ (forall x, In x roots -> fvars x qs -> fvar x h \/ D x) /\
        forall B : vset, (forall x, fvar x h -> B x) -> computes (S m) (concat parts) B D (proj (union B D) qs)).
    { clear parts Hparts. induction bs as [|b bs IHb]; intros parts Hb Hap HF; cbn [map] in HF;
        inversion HF as [|? y ? parts' Hy HF']; subst.
      - exists []. split; [intros a; split; [intros []|intros (b & [] & _)]|].
        exists (fun _ => False). split; [intros x []|]. split; [intros x _ (a & [] & _)|]. intros B _.
        eapply computes_iff; [| | |apply (computes_nil (S m) B)]; try reflexivity.
        intros s Hs; split; auto. intros _. exists s. split; [exact Hs|]. split; [intros x _; reflexivity|intros a []].
      - destruct Hap as [Hdis Hap].
        destruct (IHb parts') as (qs & Hqs & D & HD & Hroots & HC); auto; [intros; apply Hb; now right|]. clear IHb HF HF'.
        cbn [b_variables b_atoms restore_atom_order] in Hy.
        change (flat_map (fun atom => match find (fun batch_atom => py_eq batch_atom atom) (b_atoms b) with
                                      | Some batch_atom => [batch_atom] | None => [] end) (map atom_value rest)) with (group b) in Hy.
        assert (Hbr : In b raw) by (apply Hb; now left).
        destruct (Hgroup b Hbr) as (g & Eg & Hg & Hgr). rewrite Eg in Hy.
        assert (Hfg : flat_atoms arity g) by (intros a Ha; apply Hfr; auto).
        assert (Hkg : forall k, R <= k -> known_to k g)
          by (intros k Hle a Ha; destruct (Hk a) as [Hk1 Hk2]; [right; auto|split; [lia|auto]]).
        assert (Hd : forall x, fvars x g -> fvars x qs -> fvars x [h]).
        { intros x (a & Ha & Hx) (a' & Ha' & Hx'). destruct (in_var_dec x (fa_args h)) as [Hxh|Hxh].
          - exists h. split; [now left|exact Hxh].
          - exfalso. apply Hqs in Ha' as (b' & Hb' & Ha'). apply (Hdis b' Hb' x).
            + apply (Hvars b x Hbr). split; [|exact Hxh]. exists a. split; [now apply Hg|auto].
            + apply (Hvars b' x); [apply Hb; now right|]. split; [|exact Hxh]. exists a'. auto. }
        exists (g ++ qs). split.
        { intros a. rewrite in_app_iff, (Hg a), (Hqs a). split.
          - intros [Ha|(b' & Hb' & Ha)]; [exists b; split; [now left|auto]|exists b'; split; [now right|auto]].
          - intros (b' & [<-|Hb'] & Ha); auto. right. eauto. }
        assert (HBh : forall B : vset, (forall x, fvar x h -> B x) -> forall x, fvars x [h] -> B x)
          by (intros B HB x (a & [<-|[]] & Hx); auto).
        destruct (share (b_variables b) roots) eqn:Esh.
        + inversion Hy; subst. exists (union (fun x => fvars x g) D). split; [|split].
          * intros x [Hx|Hx]; apply fvars_app; auto.
          * intros x Hx Hq. apply fvars_app in Hq as [Hq|Hq]; [right; now left|]. destruct (Hroots x Hx Hq); auto. right. now right.
          * intros B HB. cbn [concat].
            eapply computes_iff; [reflexivity|reflexivity| |apply computes_prefix; auto; [apply Hkg; lia|]].
            2:{ apply HC. intros x Hx. left. auto. }
            intros s Hs. cbv beta. split.
            -- intros (Hsat & Hpr). apply (proj_merge B (fun x => fvars x g) D [h] g qs); [exact (HBh B HB)|auto|exact HD|exact Hd| |exact Hpr].
               exists s. split; auto. split; [intros x _; reflexivity|auto].
            -- intros Hpr. apply proj_split in Hpr as [(s' & C & S & Q) Hpr]. split; auto.
               eapply (satisfies_same g s'); [|exact Q]. intros x Hx. symmetry. apply S. now right.
        + apply obind_ok in Hy as (q' & Hq' & Hy). inversion Hy; subst.
          destruct (IH g [] q' m R) as (D' & HD' & _ & HC'); auto; [lia|].
          exists D. split; [|split].
          * intros x Hx. apply fvars_app; auto.
          * intros x Hx Hq. apply fvars_app in Hq as [Hq|Hq]; auto.
            destruct (in_var_dec x (fa_args h)) as [Hxh|Hxh]; [left; exact Hxh|]. exfalso.
            rewrite share_false in Esh. apply (Esh x); auto. apply Hvars; auto. split; auto.
            destruct Hq as (a & Ha & Hxa). exists a. split; auto. now apply Hg.
          * intros B HB. cbn [concat app].
            eapply computes_iff with (B := B) (D := union (fun _ => False) D);
              [reflexivity|intros x; unfold union; tauto| |apply computes_cons; [eapply computes_scoped; apply (HC' B)| |]].
            2:{ apply HC. intros x Hx. left. auto. }
            2:{ intros s s' Hss (s1 & C1 & S1 & Q1). exists s1. split; auto. split; auto.
                intros x Hx. rewrite S1 by auto. symmetry. apply Hss. now left. }
            intros s Hs. cbv beta. split.
            -- intros ((s' & C & S & Q) & Hpr).
               assert (P1 : proj (union B (fun _ => False)) g s).
               { destruct Q as (s2 & C2 & S2 & Q2). exists s2. split; auto. split; auto.
                 intros x [Hx|[]]. rewrite S2 by (now left). now apply S. }
               destruct (proj_merge B (fun _ => False) D [h] g qs s) as (s3 & C3 & S3 & Q3);
                 [exact (HBh B HB)|intros x []|exact HD|exact Hd|exact P1|exact Hpr|].
               exists s3. split; auto. split; auto. intros x [Hx|Hx]; apply S3; [now left|right; now right].
            -- intros (s3 & C3 & S3 & Q3). split.
               ++ exists s3. split; auto. split; [intros x Hx; apply S3; now left|].
                  exists s3. split; auto. split; [intros x _; reflexivity|]. intros a Ha. apply Q3, in_app_iff. auto.
               ++ exists s3. split; auto. split; [|intros a Ha; apply Q3, in_app_iff; auto].
                  intros x [[Hx|[]]|Hx]; apply S3; [now left|now right]. }
    destruct (G raw parts) as (qs & Hqs & D & HD & Hroots & HC); auto. clear G.
    assert (Eqs : forall a, In a qs <-> In a rest).
    { intros a. rewrite (Hqs a), <- (in_map_atom a rest). split.
      - intros (b & Hb & Ha). now apply (Hin b).
      - intros Ha. apply (Permutation_in _ Hp) in Ha. unfold all_atoms in Ha. apply in_flat_map in Ha. exact Ha. }
    assert (Evs : forall x, fvars x qs <-> fvars x rest).
    { intros x. split; intros (a & Ha & Hx); exists a; (split; [now apply Eqs|auto]). }
    exists (union (fun x => fvar x h) D). split; [|split].
    - intros x [Hx|Hx]; [exists h; split; [now left|auto]|]. apply HD, Evs in Hx. destruct Hx as (a & Ha & Hx). exists a. split; [now right|auto].
    - intros x Hx (a & [<-|Ha] & Hxa); [now left|].
      destruct (Hroots x Hx) as [?|?]; [apply Evs; exists a; auto|now left|now right].
    - intros B. eapply computes_iff; [reflexivity|reflexivity| |apply computes_cons].
      2:{ apply computes_atom; auto. intros a [<-|[]]. apply Hkm. now left. }
      2:{ apply HC. intros x Hx. now right. }
      2:{ apply sat_local. intros x Hx. now right. }
      intros s Hs. cbv beta. split.
      + intros (Hsat & (s' & C & S & Q)). exists s'. split; auto. split.
        * intros x [Hx|[Hx|Hx]]; apply S; [left; now left|left; now right|now right].
        * intros a [<-|Ha]; [|apply Q, Eqs, Ha]. apply (sat_local h (fun x => fvar x h) (fun _ H => H) s s'); auto.
          intros x Hx. apply S. left. now right.
      + intros (s' & C & S & Q). split.
        * apply (sat_local h (fun x => fvar x h) (fun _ H => H) s' s); [|apply Q; now left].
          intros x Hx. symmetry. apply S. right. now left.
        * exists s'. split; auto. split; [|intros a Ha; apply Q; right; now apply Eqs].
          intros x [[Hx|Hx]|Hx]; apply S; [now left|right; now left|right; now right].
  Qed.
End Answers.
