(** * C80-C83, C96: semantic composition, substitution and templates *)

From Coq Require Import ZArith String Ascii List Bool Arith Lia.
From Verif Require Import Py PyFacts Effects EffectsFacts Grammar Earley ParserSpec GrammarProofs EarleyProofs EarleyProofs3
  EarleyProofs4 ParserFacts PropParser Atoms AtomsFacts Composer ComposerSpec ComposerProofs ComposerProofs2
  ComposerProofs3 ComposerProofs4 TermProofs.
Import ListNotations.
Local Open Scope string_scope.
Local Open Scope list_scope.

(** ** C80 *)

Notation optimizer := (option (list value -> list string -> outcome (list (string * value)))).

(** Every node has an assignment of sentence variables that [explains] the
    result: the child's variables are the parent's where the syntax connects
    them.  All other sentence variables are new: they have numbers that the
    generator of the composer did not use before ([n]), they differ from the
    root variables, and different variables or nodes have different ones. *)
Theorem C80_variables_are_shared_or_fresh :
  forall (o : optimizer) t n p n',
    process o t n = (Ok p, n') ->
    exists sigma s n1,
      explains sigma t (p_root_variables p) (s, p_inferences p, p_executable p) /\
      (o = None -> p_iterations p = [("Semantics", s)]) /\
      (forall f, o = Some f -> exists atoms, s = VList atoms /\ f atoms (p_root_variables p) = Ok (p_iterations p)) /\
      length (p_root_variables p) = length (k_args (g_ante (rule_of t))) /\ NoDup (p_root_variables p) /\
      (forall v, In v (p_root_variables p) <-> between n n1 v) /\
      (forall q x v, own sigma t q x v -> between n1 n' v) /\
      (forall q q' x x' v, own sigma t q x v -> own sigma t q' x' v -> q = q' /\ x = x') /\
      n <= n1 /\ n1 <= n'.
Proof.
  intros o t n p n' H. destruct (process_result _ _ _ _ _ H) as (s & cat & ts & form & r & n1 & -> & Er & -> & Hc & Hn & Ho).
  destruct (compose_good _ _ _ _ _ Hc) as (L & sigma & X & F).
  exists sigma, s, (n + length (k_args (g_ante r))). rewrite Er in *.
  repeat match goal with |- _ /\ _ => split end; auto.
  - rewrite map_length, seq_length. reflexivity.
  - apply FinFun.Injective_map_NoDup; [|apply seq_NoDup]. intros a b. apply var_name_inj.
  - intros v. apply root_names.
  - apply (f_between _ _ _ F).
  - apply (f_inj _ _ _ F).
  - lia.
Qed.
Print Assumptions C80_variables_are_shared_or_fresh.

(** [closed]: the functions of the rules use no other variables than those in
    the syntax, those that are arguments of the atoms they return, and those
    in what they are given. *)
Theorem C80_only_sentence_variables :
  forall t n p n',
    closed t -> ~ leaf t -> process None t n = (Ok p, n') ->
    forall x, (exists s, In ("Semantics", s) (p_iterations p) /\ occurs x s) \/
              (exists v, In v (p_inferences p) /\ occurs x v) \/ occurs x (p_executable p) ->
    between n n' x.
Proof.
  intros t n p n' C NL H x Hx.
  destruct (process_result _ _ _ _ _ H) as (s & cat & ts & form & r & n1 & Et & Er & -> & Hc & Hn & _).
  destruct (compose_good _ _ _ _ _ Hc) as (L & sigma & X & F).
  assert (V : all_vars (between n n') s /\ Forall (all_vars (between n n')) (p_inferences p) /\ all_vars (between n n') (p_executable p)).
  { apply (explains_vars t C sigma (between n n') (p_root_variables p)); auto.
    - intros v (k & _ & ->). apply var_name_dollar.
    - intros v Hv. rewrite Er in Hv. apply root_names in Hv. eapply between_mono; [| |exact Hv]; lia.
    - intros q z v O. eapply between_mono; [| |exact (f_between _ _ _ F _ _ _ O)]; lia. }
  destruct V as (A & B & D).
  rewrite (Hn eq_refl) in Hx. destruct Hx as [(s' & [E|[]] & O)|[(v & Hv & O)|O]].
  - injection E as <-. now apply A.
  - rewrite Forall_forall in B. exact (B v Hv x O).
  - now apply D.
Qed.
Print Assumptions C80_only_sentence_variables.

(** the sentences of a dialog, composed by one composer, also when some fail *)
Fixpoint sentences (ts : list ctree) (n : nat) : list (outcome product) :=
  match ts with
  | [] => []
  | t :: ts' => let (r, n') := process None t n in r :: sentences ts' n'
  end.

Lemma sentences_nth ts : forall n i r, nth_error (sentences ts n) i = Some r ->
  exists t m m', n <= m /\ nth_error ts i = Some t /\ process None t m = (r, m') /\
    forall j r', i < j -> nth_error (sentences ts n) j = Some r' ->
      exists t' k k', m' <= k /\ nth_error ts j = Some t' /\ process None t' k = (r', k').
Proof.
  induction ts as [|t ts IH]; intros n i r H; [destruct i; discriminate|].
  cbn [sentences] in *. destruct (process None t n) as [r0 n0] eqn:E.
  pose proof (ahead_process None t n) as A. rewrite E in A. cbn in A.
  assert (Later : forall k j r', n0 <= k -> nth_error (sentences ts k) j = Some r' ->
    exists t' m m', n0 <= m /\ nth_error ts j = Some t' /\ process None t' m = (r', m')).
  { intros k j r' Hk Hj. destruct (IH _ _ _ Hj) as (t' & m & m' & Hm & Et & Ep & _).
    exists t', m, m'. repeat split; auto. lia. }
  destruct i as [|i]; cbn in H.
  - injection H as <-. exists t, n, n0. repeat split; auto.
    intros [|j] r' Hj Hr; [lia|]. cbn in Hr. destruct (Later n0 j r' (le_n _) Hr) as (t' & m & m' & X). exists t', m, m'. exact X.
  - destruct (IH _ _ _ H) as (t' & m & m' & Hm & Et & Ep & Hl). exists t', m, m'. repeat split; auto; [lia|].
    intros [|j] r' Hj Hr; [lia|]. cbn in Hr. apply (Hl j r'); [lia|exact Hr].
Qed.

Theorem C80_sentences_do_not_share_variables :
  forall ts n i j p q s s' x,
    Forall closed ts -> Forall (fun t => ~ leaf t) ts -> i < j ->
    nth_error (sentences ts n) i = Some (Ok p) -> nth_error (sentences ts n) j = Some (Ok q) ->
    In ("Semantics", s) (p_iterations p) -> In ("Semantics", s') (p_iterations q) ->
    occurs x s -> occurs x s' -> False.
Proof.
  intros ts n i j p q s s' x C NL Hij Hp Hq Hs Hs' O O'.
  destruct (sentences_nth _ _ _ _ Hp) as (t & m & m' & Hm & Et & Ep & Hl).
  destruct (Hl _ _ Hij Hq) as (t' & k & k' & Hk & Et' & Eq).
  rewrite Forall_forall in C, NL. apply nth_error_In in Et, Et'.
  destruct (C80_only_sentence_variables _ _ _ _ (C _ Et) (NL _ Et) Ep x) as (a & Ha & ->); eauto.
  destruct (C80_only_sentence_variables _ _ _ _ (C _ Et') (NL _ Et') Eq (var_name a)) as (b & Hb & E); eauto.
  apply var_name_inj in E. lia.
Qed.
Print Assumptions C80_sentences_do_not_share_variables.

(** *** a sentence: [s(P) -> np(E1) ' ' tv(E1, E2) ' ' np(E2)] *)
Definition rel (p : string) (args : list string) : constituent := mkCons p args PRelation false false.
Definition word (w : string) : constituent := mkCons w [] PWord false false.
Definition sem_rule (ante : constituent) (cons : list constituent) (f : list value -> outcome value) : crule :=
  new_rule ante cons (mkMeaning (Some f) None (DAtoms [])) 0.
Definition at_ (p : string) (args : list value) : value := VTuple (VStr p :: args).
Definition leaf_node (w : string) : ctree := Node w [] w (new_rule (word w) [word w] (scanned None) 0).

Definition s_rule : crule := sem_rule (rel "s" ["P"]) [rel "np" ["E1"]; rel "tv" ["E1"; "E2"]; rel "np" ["E2"]]
  (fun args => match args with
               | [VList np1; VList tv; VList np2] => Ok (VList (np1 ++ np2 ++ tv ++ [at_ "event" [VVar "P"; VVar "T"]]))
               | _ => Exn TypeErr end).
Definition np_rule (w : string) : crule := sem_rule (rel "np" ["E1"]) [word w]
  (fun args => match args with [] => Ok (VList [at_ w [VVar "E1"; VVar "N"]]) | _ => Exn TypeErr end).
Definition tv_rule : crule := sem_rule (rel "tv" ["E1"; "E2"]) [word "likes"]
  (fun args => match args with [] => Ok (VList [at_ "like" [VVar "E1"; VVar "E2"]]) | _ => Exn TypeErr end).
Definition np_node (w : string) : ctree := Node "np" [leaf_node w] "" (np_rule w).
Definition s_node : ctree :=
  Node "s" [np_node "john"; Node "tv" [leaf_node "likes"] "" tv_rule; np_node "mary"] "" s_rule.

Example C80_example :
  process None s_node 0 = (Ok (mkProduct [("Semantics", VList [
     at_ "john" [VVar "$2"; VVar "$4"];
     at_ "mary" [VVar "$3"; VVar "$5"];
     at_ "like" [VVar "$2"; VVar "$3"];
     at_ "event" [VVar "$1"; VVar "$6"]])] [] (VList []) ["$1"]), 6).
Proof. vm_compute. reflexivity. Qed.

Lemma not_dollar x c s : x = String c s -> c <> "$"%char -> ~ dollar x.
Proof. intros -> N (s' & E). congruence. Qed.

(** the rules of the example are closed *)
Lemma np_closed w : closed_rule (np_rule w).
Proof.
  constructor.
  - intros y D. unfold declared in D. cbn in D. destruct D as [[<-|[]]|(c & [<-|[]] & [])]. eapply not_dollar; [reflexivity|discriminate].
  - intros f sems s y Ef Es O. injection Ef as <-. destruct sems; [|discriminate]. injection Es as <-.
    inversion O as [| |v l Hv Ov|]; subst. destruct Hv as [<-|[]]. inversion Ov as [|v l Hv Ov'| |]; subst.
    destruct Hv as [<-|[<-|[<-|[]]]]; inversion Ov'; subst.
    + left. left. now left.
    + right. left. split; [|eapply not_dollar; [reflexivity|discriminate]]. eexists _, _. split; [reflexivity|].
      split; [left; left; reflexivity|]. right. right. left. reflexivity.
  - intros; discriminate.
  - intros f sems s d v y Ef Es Hd. inversion Hd; subst; try discriminate. injection H as <-. intros [].
Qed.
Lemma tv_closed : closed_rule tv_rule.
Proof.
  constructor.
  - intros y D. unfold declared in D. cbn in D. destruct D as [[<-|[<-|[]]]|(c & [<-|[]] & [])]; (eapply not_dollar; [reflexivity|discriminate]).
  - intros f sems s y Ef Es O. injection Ef as <-. destruct sems; [|discriminate]. injection Es as <-.
    inversion O as [| |v l Hv Ov|]; subst. destruct Hv as [<-|[]]. inversion Ov as [|v l Hv Ov'| |]; subst.
    destruct Hv as [<-|[<-|[<-|[]]]]; inversion Ov'; subst; left; left; cbn; auto.
  - intros; discriminate.
  - intros f sems s d v y Ef Es Hd. inversion Hd; subst; try discriminate. injection H as <-. intros [].
Qed.
Lemma s_closed : closed_rule s_rule.
Proof.
  constructor.
  - intros y D. unfold declared in D. cbn in D.
    destruct D as [[<-|[]]|(c & [<-|[<-|[<-|[]]]] & Hc)];
      [|cbn in Hc; repeat destruct Hc as [<-|Hc]; try destruct Hc..];
      (eapply not_dollar; [reflexivity|discriminate]).
  - intros f sems s y Ef Es O. injection Ef as <-.
    destruct sems as [|[| | | | | | | |np1|] [|[| | | | | | | |tv|] [|[| | | | | | | |np2|] [|]]]]; try discriminate.
    injection Es as <-. inversion O as [| |v l Hv Ov|]; subst. rewrite !in_app_iff in Hv.
    destruct Hv as [Hv|[Hv|[Hv|[<-|[]]]]].
    1-3: right; right; eexists; (split; [|eapply occurs_list; eassumption]); cbn; auto.
    inversion Ov as [|v l Hv Ov'| |]; subst. destruct Hv as [<-|[<-|[<-|[]]]]; inversion Ov'; subst.
    + left. left. now left.
    + right. left. split; [|eapply not_dollar; [reflexivity|discriminate]].
      eexists _, _. split; [reflexivity|]. split; [left; rewrite !in_app_iff; right; right; right; left; reflexivity|].
      right. right. left. reflexivity.
  - intros; discriminate.
  - intros f sems s d v y Ef Es Hd. inversion Hd; subst; try discriminate. injection H as <-. intros [].
Qed.
Lemma leaf_closed w : closed (leaf_node w).
Proof. cbn. unfold closed_leaf. cbn. discriminate. Qed.
Lemma np_node_closed w : closed (np_node w).
Proof. apply closed_node. split; [apply np_closed|]. constructor; [apply leaf_closed|constructor]. Qed.

Example C80_hypotheses : closed s_node /\ ~ leaf s_node /\
  (* the same sentence again has other variables *)
  exists q, nth_error (sentences [s_node; s_node] 0) 1 = Some (Ok q) /\
    In ("Semantics", VList [
     at_ "john" [VVar "$8"; VVar "$10"];
     at_ "mary" [VVar "$9"; VVar "$11"];
     at_ "like" [VVar "$8"; VVar "$9"];
     at_ "event" [VVar "$7"; VVar "$12"]]) (p_iterations q).
Proof.
  split; [|split].
  - apply closed_node. split; [apply s_closed|]. repeat apply Forall_cons; try apply Forall_nil; try apply np_node_closed.
    apply closed_node. split; [apply tv_closed|]. constructor; [apply leaf_closed|constructor].
  - intros [].
  - eexists. split; [vm_compute; reflexivity|]. vm_compute. left. reflexivity.
Qed.

(** ** C81 *)

(** A variable that is neither declared nor an argument of one of the atoms
    keeps its name, whatever the node and the grammar are. *)
Theorem C81_nested_variables_keep_their_name :
  forall t incoming n s i x n' cat ts form r,
    t = Node cat ts form r -> compose t incoming n = (Ok (s, i, x), n') ->
    exists sems f s0, m_sem (g_mean r) = Some f /\ f sems = Ok s0 /\
      forall y, occurs y s0 -> ~ declared r y -> ~ argument y s0 -> occurs y s.
Proof.
  intros t incoming n s i x n' cat ts form r -> H.
  destruct (compose_good _ _ _ _ _ H) as (_ & sigma & X & _).
  inversion X as [sigma' cat' ts' form' r' inc' sems infs exe f s0 x0 d XC Ef Es Hx Hd Ha Hk]; subst.
  exists sems, f, s0. repeat split; auto. intros y O ND NA.
  assert (E : sigma [] y = None).
  { destruct (sigma [] y) eqn:E; auto. exfalso. destruct (proj1 (Hk y)) as [F|(F & _)]; [congruence|auto|auto]. }
  pose proof (rename_occurs (sigma []) s0 y O) as R. rewrite E in R. exact R.
Qed.
Print Assumptions C81_nested_variables_keep_their_name.

(** So two noun phrases of the same form share a variable that belongs to each
    of them: "not john likes not john". *)
Definition not_rule : crule := sem_rule (rel "np" ["E1"]) [word "nobody"]
  (fun args => match args with [] => Ok (VList [at_ "not" [VList [at_ "name" [VVar "E1"; VVar "X"]]]]) | _ => Exn TypeErr end).
Definition not_node : ctree := Node "np" [leaf_node "nobody"] "" not_rule.
Theorem C81_two_uses_share_a_variable_refuted :
  ~ (forall t n p n', process None t n = (Ok p, n') -> ~ leaf t ->
     forall s x, In ("Semantics", s) (p_iterations p) -> occurs x s -> between n n' x) /\
  exists p n',
    process None (Node "s" [not_node; Node "tv" [leaf_node "likes"] "" tv_rule; not_node] "" s_rule) 0 = (Ok p, n') /\
    p_iterations p = [("Semantics", VList [
      at_ "not" [VList [at_ "name" [VVar "$2"; VVar "X"]]];
      at_ "not" [VList [at_ "name" [VVar "$3"; VVar "X"]]];
      at_ "like" [VVar "$2"; VVar "$3"];
      at_ "event" [VVar "$1"; VVar "$4"]])].
Proof.
  assert (E : exists p n',
    process None (Node "s" [not_node; Node "tv" [leaf_node "likes"] "" tv_rule; not_node] "" s_rule) 0 = (Ok p, n') /\
    p_iterations p = [("Semantics", VList [
      at_ "not" [VList [at_ "name" [VVar "$2"; VVar "X"]]];
      at_ "not" [VList [at_ "name" [VVar "$3"; VVar "X"]]];
      at_ "like" [VVar "$2"; VVar "$3"];
      at_ "event" [VVar "$1"; VVar "$4"]])]).
  { eexists _, _. split; vm_compute; reflexivity. }
  split; [|exact E]. intros H. destruct E as (p & n' & E & Ei).
  assert (B : between 0 n' "X").
  { apply (H _ _ _ _ E) with (s := snd (hd ("", VNone) (p_iterations p))).
    - intros [].
    - rewrite Ei. left. reflexivity.
    - rewrite Ei. cbn. eapply occurs_list; [left; reflexivity|]. unfold at_.
      eapply occurs_tuple; [right; left; reflexivity|]. eapply occurs_list; [left; reflexivity|].
      eapply occurs_tuple; [right; right; left; reflexivity|]. constructor. }
  destruct B as (k & _ & Ek). discriminate.
Qed.
Print Assumptions C81_two_uses_share_a_variable_refuted.

(** ** C82 *)

(** The term with a binding applied, described at every place [p] of the term:
    bound variables are replaced, and nothing else changes. *)
Theorem C82_exactly_the_bound_variables :
  forall v b p w, part p v = Some w ->
    match w with
    | VVar x => part p (bind_variables v b) = Some (match bget x b with Some u => u | None => VVar x end)
    | VTuple l => exists l', part p (bind_variables v b) = Some (VTuple l') /\ length l' = length l
    | VList l => exists l', part p (bind_variables v b) = Some (VList l') /\ length l' = length l
    | _ => part p (bind_variables v b) = Some w
    end.
Proof.
  intros v b p w H. pose proof (part_bind p v b w H) as E. rewrite E.
  destruct w; cbn; try reflexivity; eexists; (split; [reflexivity|apply map_length]).
Qed.
Print Assumptions C82_exactly_the_bound_variables.

Theorem C82_variables_of_a_term :
  forall v x, (In x (atom_variables v) <-> exists p, part p v = Some (VVar x)) /\ NoDup (atom_variables v).
Proof. intros v x. split; [apply variables_part|apply NoDup_variables]. Qed.
Print Assumptions C82_variables_of_a_term.

Theorem C82_variables_of_atoms :
  forall l x, (In x (atoms_variables l) <-> exists a p, In a l /\ part p a = Some (VVar x)) /\ NoDup (atoms_variables l).
Proof.
  intros l x. split; [|apply NoDup_fold_atoms; constructor]. rewrite atoms_variables_In. split.
  - intros (a & Ha & Hx). apply variables_part in Hx as (p & Hp). eauto.
  - intros (a & p & Ha & Hp). exists a. split; auto. apply variables_part. eauto.
Qed.
Print Assumptions C82_variables_of_atoms.

Example C82_example :
  let t := at_ "not" [VList [at_ "p" [VVar "X"; VVar "Y"]]; VVar "X"] in
  part [1; 0; 1] t = Some (VVar "X") /\
  bind_variables t [("X", VInt 5)] = at_ "not" [VList [at_ "p" [VInt 5; VVar "Y"]]; VInt 5] /\
  atom_variables t = ["X"; "Y"].
Proof. repeat split. Qed.

(** ** C83 *)

(** [toks] are the formal tokens of the template.  All occurrences of the
    tokens are replaced at once, provided that no value contains the token of a
    later one. *)
Theorem C83_values_are_spliced_in :
  forall args body toks values,
    Forall2 (fun a t => first a = Ok (VStr t)) args toks ->
    length values <= length args ->
    (forall i j vi t, i < j -> j < length values -> nth_error values i = Some vi -> nth_error toks j = Some t ->
       forall w, In w vi -> ~ token_in t w) ->
    apply (VTmpl args body) (map VList values) =
    Ok (VList (flat_map (splice (stands_for toks values)) body)).
Proof. intros args body toks values F L N. unfold apply. rewrite (apply_from_result toks); auto. Qed.
Print Assumptions C83_values_are_spliced_in.

(** more values than formal arguments *)
Theorem C83_too_many_values :
  forall args body toks values,
    Forall2 (fun a t => first a = Ok (VStr t)) args toks ->
    length args < length values ->
    apply (VTmpl args body) (map VList values) = Exn IndexErr.
Proof.
  intros args body toks values F L. unfold apply.
  assert (E : forall body, apply_from args body (map VList values) = Exn IndexErr); [|now rewrite E].
  revert toks F values L. induction args as [|a args IH]; intros toks F values L b.
  - destruct values; [cbn in L; lia|reflexivity].
  - inversion F as [|? t ? toks' Ea F']; subst. destruct values as [|v values]; [cbn in L; lia|].
    cbn [map apply_from]. rewrite Ea. cbn [obind elements]. apply (IH toks'); auto. cbn in L. lia.
Qed.
Print Assumptions C83_too_many_values.

(** a value without elements cannot be spliced in: it is an error if its token
    occurs in the template, at any depth, and else it is ignored *)
Lemma token_eq t v : py_eq v (VStr t) = true <-> v = VStr t.
Proof.
  split; [|intros ->; apply py_eq_refl]. destruct v; cbn; try discriminate. intros H. apply String.eqb_eq in H. now subst.
Qed.
Lemma meets_token t : forall v, meets (VStr t) v = true <-> token_in t v.
Proof.
  induction v as [| | | | | | |l IH|l IH|args body IHa IHb] using value_ind'; cbn [meets]; rewrite ?orb_true_iff, ?token_eq.
  all: try (split; [intros [H|H]; [rewrite ?H; try discriminate H; constructor|discriminate H]|intros H; inversion H; auto]).
  all: rewrite existsb_exists; (split; [intros [H|(w & Hw & H)]; [discriminate H|]; rewrite Forall_forall in IH; econstructor; [exact Hw|]; now apply IH|]);
    intros H; right; inversion H as [|w l' Hw Ht|w l' Hw Ht]; subst; exists w; (split; [exact Hw|]); rewrite Forall_forall in IH; now apply IH.
Qed.
Theorem C83_only_lists_are_spliced :
  forall a args body t v,
    first a = Ok (VStr t) -> elements v = None ->
    ((exists w, In w body /\ token_in t w) -> apply (VTmpl (a :: args) body) [v] = Exn TypeErr) /\
    ((forall w, In w body -> ~ token_in t w) -> apply (VTmpl (a :: args) body) [v] = Ok (VList body)).
Proof.
  intros a args body t v Ea Ev. unfold apply. cbn [apply_from]. rewrite Ea. cbn [obind]. rewrite Ev. split.
  - intros (w & Hw & Ht). replace (existsb (meets (VStr t)) body) with true; [reflexivity|]. symmetry. apply existsb_exists. exists w. split; [exact Hw|now apply meets_token].
  - intros Hn. replace (existsb (meets (VStr t)) body) with false.
    + cbn [obind]. do 2 f_equal. unfold replace. induction body as [|w body IH]; cbn [flat_map]; [reflexivity|].
      rewrite IH by (intros w' Hw'; apply Hn; now right).
      assert (E : forall w, ~ token_in t w -> replace_one (VStr t) [] w = [w]).
      { clear. induction w as [| | | | | | |l IH|l IH|args body IHa IHb] using value_ind'; intros N; cbn [replace_one].
        all: match goal with |- (if ?c then _ else _) = _ => destruct c eqn:Ec; [apply token_eq in Ec; first [discriminate Ec|exfalso; apply N; rewrite Ec; constructor]|] end; try reflexivity.
        all: do 2 f_equal; clear Ec; assert (Nl : forall w, In w l -> ~ token_in t w) by (intros w Hw H; apply N; econstructor; eassumption); clear N;
          induction IH as [|w l Hw Hl IHl]; [reflexivity|]; cbn [flat_map]; rewrite Hw by (apply Nl; now left);
          rewrite IHl by (intros w' Hw'; apply Nl; now right); reflexivity. }
      rewrite E by (apply Hn; now left). reflexivity.
    + symmetry. apply not_true_iff_false. intros E. apply existsb_exists in E as (w & Hw & E). apply meets_token in E. exact (Hn w Hw E).
Qed.
Print Assumptions C83_only_lists_are_spliced.
Example C83_only_lists_example :
  let tmpl := VTmpl [VList [VStr "__$Body$__"]] [at_ "not" [VList [VStr "__$Body$__"]]; at_ "p" []] in
  apply tmpl [VInt 3] = Exn TypeErr /\ apply tmpl [VList [VInt 3]] = Ok (VList [at_ "not" [VList [VInt 3]]; at_ "p" []]) /\
  apply (VTmpl [VList [VStr "__$Body$__"]] [at_ "p" []]) [VInt 3] = Ok (VList [at_ "p" []]).
Proof. repeat split. Qed.

(** grammar_functions.py replaces one token after the other: a token in an
    earlier value is replaced by the later value *)
Definition two_tokens : value :=
  VTmpl [VList [VStr "__$Range$__"]; VList [VStr "__$Body$__"]]
        [at_ "all" [VVar "E1"; VList [VStr "__$Range$__"]; VList [VStr "__$Body$__"]]].
Theorem C83_tokens_in_values_refuted :
  ~ (forall args body toks values,
      Forall2 (fun a t => first a = Ok (VStr t)) args toks -> length values <= length args ->
      apply (VTmpl args body) (map VList values) =
      Ok (VList (flat_map (splice (stands_for toks values)) body))) /\
  apply two_tokens [VList [at_ "p" []; VStr "__$Body$__"]; VList [at_ "q" []]] =
  Ok (VList [at_ "all" [VVar "E1"; VList [at_ "p" []; at_ "q" []]; VList [at_ "q" []]]]).
Proof.
  split; [|vm_compute; reflexivity]. intros H.
  specialize (H [VList [VStr "__$Range$__"]; VList [VStr "__$Body$__"]]
    [at_ "all" [VVar "E1"; VList [VStr "__$Range$__"]; VList [VStr "__$Body$__"]]]
    ["__$Range$__"; "__$Body$__"] [[at_ "p" []; VStr "__$Body$__"]; [at_ "q" []]]).
  assert (F : Forall2 (fun a t => first a = Ok (VStr t)) [VList [VStr "__$Range$__"]; VList [VStr "__$Body$__"]] ["__$Range$__"; "__$Body$__"])
    by (repeat constructor).
  specialize (H F (le_n _)). vm_compute in H. discriminate.
Qed.
Print Assumptions C83_tokens_in_values_refuted.

Example C83_example :
  apply two_tokens [VList [at_ "river" [VVar "E1"]]; VList [VStr "__$Body$__"]] =
  Ok (VList [at_ "all" [VVar "E1"; VList [at_ "river" [VVar "E1"]]; VList [VStr "__$Body$__"]]]) /\
  forall w, In w [at_ "river" [VVar "E1"]] -> ~ token_in "__$Body$__" w.
Proof.
  split; [vm_compute; reflexivity|]. intros w [<-|[]] T. inversion T as [|v l Hv Tv|]; subst.
  destruct Hv as [<-|[<-|[]]]; inversion Tv.
Qed.

(** ** C96 *)

(** Whatever the grammar and the text: if the categories have types (sets of
    values [T]) that the functions of the rules respect, then every parse tree
    is composed, and the meaning has the type of a sentence. *)
Theorem C96_parse_trees_are_composed :
  forall T re_match delta_mean gamma_mean (rules : list crule) history fuel text r t,
    Forall proper_rule rules -> re_ok re_match ->
    type_ok T -> (forall r, in_grammar rules r -> well_typed T r /\ plain_rule r) ->
    fst (parser_process scanned delta_mean gamma_mean re_match fuel text
           (after_parses scanned delta_mean gamma_mean re_match history (grammar_rules rules))) = Ok r ->
    In t (pr_products r) ->
    forall n, exists p n' s, process None t n = (Ok p, n') /\ p_iterations p = [("Semantics", s)] /\
      T (g_ante (rule_of t)) s /\ k_pred (g_ante (rule_of t)) = "s".
Proof.
  intros T re_match dm gm rules history fuel text r t Hp Hre TY HG H Ht n.
  destruct (C61_trees_are_derivations scanned dm gm re_match rules history fuel text r t Hp Hre H Ht) as ((c & Sc & Tc & D) & _).
  pose proof (proj1 (derives_fits T re_match (in_grammar rules) (normalize text) TY HG) _ _ _ _ D) as Fi.
  specialize (Fi ltac:(intros E; rewrite E in Tc; discriminate)).
  assert (NL : ~ leaf t).
  { destruct Fi; try congruence. intros []. }
  assert (SK : same_kind (g_ante (rule_of t)) c) by (destruct Fi; [congruence|congruence|assumption]).
  unfold process, bind. rewrite (check_fits T _ _ Fi n).
  destruct t as [cat ts form r0].
  assert (E : exists vs n1, next_for (k_args (g_ante r0)) n = (Ok vs, n1) /\ length vs = length (k_args (g_ante r0))).
  { clear. generalize (k_args (g_ante r0)). intros l. revert n. induction l as [|a l IH]; intros n; [exists [], n; auto|].
    destruct (IH (S n)) as (vs & n1 & E & L). exists (var_name (S n) :: vs), n1. split; [|cbn; now rewrite L].
    cbn. unfold bind. cbn. now rewrite E. }
  destruct E as (vs & n1 & -> & Lv).
  destruct (compose_returns T _ TY _ Fi NL vs n1 Lv) as (res & n2 & -> & Tr & _).
  eexists _, _, _. split; [reflexivity|]. split; [reflexivity|]. split.
  - apply (ty_kind _ TY) with c; auto. destruct SK as (A & B & C). repeat split; congruence.
  - rewrite <- Sc. apply SK.
Qed.
Print Assumptions C96_parse_trees_are_composed.

(** a grammar with types: lists of atoms for all categories *)
Definition atoms_type (c : constituent) (v : value) : Prop :=
  if spoken c then match k_type c with
                   | PRegExp => exists w, v = VStr w
                   | _ => exists l, v = VList l /\ Forall (fun a => exists args, a = VTuple args) l
                   end
  else True.
Lemma atoms_type_ok : type_ok atoms_type.
Proof.
  unfold atoms_type, spoken. constructor.
  - intros c c' v (_ & _ & E). rewrite E. auto.
  - intros c a v. destruct (k_type c); cbn; auto.
    + intros (l & -> & F). exists (map (rename a) l). split; auto. rewrite Forall_forall in *.
      intros w Hw. apply in_map_iff in Hw as (u & <- & Hu). destruct (F u Hu) as (args & ->). cbn. eexists. reflexivity.
    + intros (w & ->). exists w. reflexivity.
  - intros c w E. rewrite E. cbn. exists w. reflexivity.
Qed.
Definition small_grammar : list crule := [
  sem_rule (rel "s" ["P"]) [rel "np" ["E1"]; word " "; rel "tv" ["E1"; "E2"]; word " "; rel "np" ["E2"]]
    (fun args => match args with
               | [VList np1; VList tv; VList np2] => Ok (VList (np1 ++ np2 ++ tv ++ [at_ "event" [VVar "P"; VVar "T"]]))
               | _ => Exn TypeErr end);
  np_rule "john"; np_rule "mary"; tv_rule].

Lemma sem_rule_typed ante cons f :
  (forall args, Forall2 atoms_type (filter spoken cons) args -> exists v, f args = Ok v /\ atoms_type ante v /\
     forall atoms, v = VList atoms -> Forall iterable atoms) ->
  well_typed atoms_type (sem_rule ante cons f).
Proof. intros H. constructor; [exists f; auto|intros; discriminate|intros; discriminate]. Qed.

Lemma same_variant (r : crule) r' : (forall c, In c (g_cons r) -> k_optional c = false) ->
  rule_variant r r' -> g_ante r' = g_ante r /\ g_mean r' = g_mean r /\ g_cons r' = g_cons r.
Proof.
  intros No (Ea & Em & _ & _ & V). split; auto. split; auto. revert No. clear Ea Em.
  induction V as [|first c l rest v St V IH|first c l rest v St V IH|first c rest v St V IH|first c rest v St Op V IH]; intros No; auto.
  - f_equal. f_equal. apply IH. intros d Hd. apply No. right. now right.
  - exfalso. destruct St as (c0 & l0 & rest0 & E & [(_ & Op & _)|(_ & Op & _)]); injection E as <- <- <-;
      unfold opt in Op; rewrite No in Op; try discriminate; cbn; auto.
  - f_equal. apply IH. intros d Hd. apply No. now right.
  - exfalso. unfold opt in Op. rewrite No in Op; [discriminate|now left].
Qed.

Lemma small_grammar_typed r : in_grammar small_grammar r -> well_typed atoms_type r /\ plain_rule r.
Proof.
  assert (One : forall w, w <> "" -> forall ante p args, k_type ante = PRelation ->
    well_typed atoms_type (sem_rule ante [word w] (fun l => match l with [] => Ok (VList [at_ p args]) | _ => Exn TypeErr end)) /\
    plain_rule (sem_rule ante [word w] (fun l => match l with [] => Ok (VList [at_ p args]) | _ => Exn TypeErr end))).
  { intros w Nw ante p args Ka. split.
    - apply sem_rule_typed. intros l F. cbn in F. inversion F; subst. eexists. split; [reflexivity|]. split.
      + unfold atoms_type, spoken. rewrite Ka. cbn. exists [at_ p args]. split; auto. constructor; [|constructor]. eexists. reflexivity.
      + intros atoms E. injection E as <-. constructor; [|constructor]. eexists. reflexivity.
    - split; [exact Ka|]. split; [discriminate|]. intros c [<-|[]] _. exact Nw. }
  assert (All : forall r, In r small_grammar -> (well_typed atoms_type r /\ plain_rule r) /\ forall c, In c (g_cons r) -> k_optional c = false).
  { intros r0 [<-|[<-|[<-|[<-|[]]]]].
    - split; [split|].
      + apply sem_rule_typed. intros l F. cbn in F. inversion F as [|? v1 ? l1 T1 F1]; subst.
        inversion F1 as [|? v2 ? l2 T2 F2]; subst. inversion F2 as [|? v3 ? l3 T3 F3]; subst. inversion F3; subst.
        cbn in T1, T2, T3. destruct T1 as (a1 & -> & A1), T2 as (a2 & -> & A2), T3 as (a3 & -> & A3).
        eexists. split; [reflexivity|].
        assert (A : Forall (fun a => exists args, a = VTuple args) (a1 ++ a3 ++ a2 ++ [at_ "event" [VVar "P"; VVar "T"]])).
        { repeat (apply Forall_app; split; auto). constructor; [|constructor]. eexists. reflexivity. }
        split.
        * cbn. eexists. split; [reflexivity|exact A].
        * intros atoms E. injection E as <-. eapply Forall_impl; [|exact A]. intros a (args & ->). eexists. reflexivity.
      + split; [reflexivity|]. split; [discriminate|]. intros c Hc _. cbn in Hc.
        repeat destruct Hc as [<-|Hc]; try discriminate. destruct Hc.
      + intros c Hc. cbn in Hc. repeat destruct Hc as [<-|Hc]; try reflexivity. destruct Hc.
    - split; [apply One; [discriminate|reflexivity]|]. intros c [<-|[]]. reflexivity.
    - split; [apply One; [discriminate|reflexivity]|]. intros c [<-|[]]. reflexivity.
    - split; [apply One; [discriminate|reflexivity]|]. intros c [<-|[]]. reflexivity. }
  intros (r0 & H0 & V). destruct (All r0 H0) as ((W & (P1 & P2 & P3)) & No).
  destruct (same_variant _ _ No V) as (Ea & Em & Ec). split.
  - destruct W as [W1 W2 W3]. constructor; rewrite ?Ea, ?Em, ?Ec; auto.
  - unfold plain_rule. rewrite Ea, Ec. auto.
Qed.

Lemma small_grammar_proper : Forall proper_rule small_grammar.
Proof.
  unfold small_grammar. repeat match goal with |- Forall _ (_ :: _) => constructor | |- Forall _ [] => constructor end;
  constructor; try (split; cbn; discriminate); intros c H; cbn in H;
  repeat (destruct H as [<-|H]; [split; [intros T; cbn in T |- *; try discriminate T; split; discriminate|cbn; discriminate]|]); destruct H.
Qed.

Example C96_hypotheses :
  let re := fun _ _ : string => Ok None in
  Forall proper_rule small_grammar /\ re_ok re /\ type_ok atoms_type /\
  (forall r, in_grammar small_grammar r -> well_typed atoms_type r /\ plain_rule r) /\
  exists r t, fst (parser_process scanned (scanned None) (scanned None) re 100 "John likes  Mary" (grammar_rules small_grammar)) = Ok r /\
    pr_products r = [t] /\
    process None t 0 = (Ok (mkProduct [("Semantics", VList [
     at_ "john" [VVar "$2"; VVar "$4"];
     at_ "mary" [VVar "$3"; VVar "$5"];
     at_ "like" [VVar "$2"; VVar "$3"];
     at_ "event" [VVar "$1"; VVar "$6"]])] [] (VList []) ["$1"]), 6).
Proof.
  split; [apply small_grammar_proper|]. split; [intros p s m H; discriminate|].
  split; [apply atoms_type_ok|]. split; [apply small_grammar_typed|].
  eexists _, _. split; [vm_compute; reflexivity|]. split; [reflexivity|]. vm_compute. reflexivity.
Qed.
