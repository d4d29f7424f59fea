(** * Solving the atoms of a question about a place of birth *)

From Coq Require Import ZArith String Ascii List Bool Arith Lia.
From Verif Require Import Py PyFacts Atoms ReprProofs Effects EffectsFacts Solver CoreModule CoreProofs InferenceModule Sparql SparqlEngine SparqlEngineProofs PropSparql
  SimpleDataSource Memory MemoryProofs Grammar Earley Generator FragmentModel TalkModel SirModel SirSpec SirProofs5 CooperProofs3 WikidataModel WikidataSpec WikidataProofs.
Import ListNotations.
Local Open Scope nat_scope.
Local Open Scope string_scope.
Local Open Scope list_scope.

(** ** each row once, each solution once *)

Lemma rows_kept (f : string -> list value) : (forall x y, py_str (VList (f x)) = py_str (VList (f y)) -> x = y) -> forall l acc,
  fold_left add_row (map (fun x => VList (f x)) l) (map (fun x => VList (f x)) acc) = map (fun x => VList (f x)) (fold_left add_once l acc).
Proof.
  intros Hf. induction l as [|c l IH]; intros acc; [reflexivity|]. cbn [map fold_left]. rewrite <- IH. f_equal. unfold add_row, add_once.
  assert (Ee : existsb (fun r => String.eqb (py_str r) (py_str (VList (f c)))) (map (fun x => VList (f x)) acc) = existsb (String.eqb c) acc).
  { induction acc as [|a acc IHa]; [reflexivity|]. cbn [map existsb]. rewrite IHa. f_equal.
    destruct (String.eqb_spec c a) as [->|N]; [apply String.eqb_refl|]. apply String.eqb_neq. intros Eq. apply N. symmetry. now apply Hf. }
  rewrite Ee. destruct (existsb (String.eqb c) acc); [reflexivity|]. now rewrite map_app.
Qed.
Lemma bindings_kept {A} (f : A -> binding) : (forall x y, dict_eq (f x) (f y) = true -> x = y) -> forall l acc,
  exists l', fold_left add_binding (map f l) (map f acc) = map f l' /\ forall x, In x l' <-> In x acc \/ In x l.
Proof.
  intros Hf. induction l as [|c l IH]; intros acc; [exists acc; cbn; tauto|]. cbn [map fold_left]. unfold add_binding at 2.
  destruct (dict_in (f c) (map f acc)) eqn:Ed.
  - destruct (IH acc) as (l' & -> & H). exists l'. split; [reflexivity|]. intros x. rewrite H. cbn [In]. split; [tauto|]. intros [Hx|[<-|Hx]]; auto.
    left. unfold dict_in in Ed. apply existsb_exists in Ed as (r & Hr & Eq). apply in_map_iff in Hr as (y & <- & Hy). apply Hf in Eq. now subst.
  - change (map f acc ++ [f c]) with (map f acc ++ map f [c]). rewrite <- map_app. destruct (IH (acc ++ [c])) as (l' & -> & H). exists l'. split; [reflexivity|].
    intros x. rewrite H, in_app_iff. cbn [In]. tauto.
Qed.
Lemma told_apart k (f : string -> binding) : (forall x, bget k (f x) = Some (VStr x)) -> forall x y, dict_eq (f x) (f y) = true -> x = y.
Proof. intros Hf x y H. apply dict_eq_spec in H. specialize (H k). rewrite !Hf in H. cbn in H. now apply String.eqb_eq in H. Qed.

Section Steps.
  Context {W : Type}.
  Variable mods : list (modul W).

  Lemma finish_each (f : string -> list value) (g : string -> binding) args b l (w : W) :
    (forall x y, py_str (VList (f x)) = py_str (VList (f y)) -> x = y) -> (forall x, length (f x) = length args) ->
    (forall x, match_args (VList (f x)) b 0 args b false w = (Ok (g x, false), w)) ->
    finish args b (QRows (map (fun x => VList (f x)) l)) w = (Ok (SList (map g (firsts l))), w).
  Proof.
    intros Hf Hl Hm. unfold finish. pose proof (rows_kept f Hf l []) as Er. cbn [map] in Er. rewrite Er. fold (firsts l).
    assert (Ec : check_first_row (map (fun x => VList (f x)) (firsts l)) args w = (Ok tt, w)).
    { destruct (firsts l) as [|x l']; [reflexivity|]. cbn [map check_first_row]. specialize (Hl x). apply Nat.eqb_eq in Hl. now rewrite Hl. }
    unfold bind at 1. rewrite Ec. unfold create_results.
    assert (H : forall l' acc, foldM (fun results v => bind (match_args v b 0 args b false) (fun rc => let '(result, conflict) := rc in if conflict : bool then ret results else ret (results ++ [result])))
       acc (map (fun x => VList (f x)) l') w = (Ok (acc ++ map g l'), w)).
    { induction l' as [|x l' IH]; intros acc; [cbn; now rewrite app_nil_r|]. cbn [map foldM]. unfold bind at 1. unfold bind at 1. rewrite Hm. cbn [ret]. rewrite IH, <- app_assoc. reflexivity. }
    unfold bind at 1. rewrite H. reflexivity.
  Qed.

  (** the rest is solved for each solution of the first, until something goes wrong *)
  Lemma seq_run n a rest b bs (w w1 : W) (J : list (binding * list binding) -> W -> Prop) (Bad : exn -> W -> Prop) :
    rest <> [] -> solve mods n (VList [a]) b w = (Ok (SList bs), w1) -> J [] w1 ->
    (forall before x w, In x bs -> J before w ->
       (exists rs w', solve mods n (VList rest) x w = (Ok (SList rs), w') /\ J (before ++ [(x, rs)]) w') \/
       (exists e w', solve mods n (VList rest) x w = (Exn e, w') /\ Bad e w')) ->
    (exists L w', map fst L = bs /\ J L w' /\ solve mods n (VList (a :: rest)) b w = (Ok (SList (fold_left add_binding (concat (map snd L)) [])), w')) \/
    (exists e w', Bad e w' /\ solve mods n (VList (a :: rest)) b w = (Exn e, w')).
  Proof.
    intros Hr E1 HJ Hs. destruct n as [|n]; [discriminate|].
    set (step := fun acc b' => bind (solve mods (S n) (VList rest) b') (fun rr => bind (sres_items rr) (fun rs => ret (fold_left add_binding rs acc)))).
    assert (H : forall bs' before w2, incl bs' bs -> J before w2 ->
      (exists L w', map fst L = bs' /\ J (before ++ L) w' /\ forall acc, foldM step acc bs' w2 = (Ok (fold_left add_binding (concat (map snd L)) acc), w')) \/
      (exists e w', Bad e w' /\ forall acc, foldM step acc bs' w2 = (Exn e, w'))).
    { induction bs' as [|x bs' IH]; intros before w2 Hi H2.
      - left. exists [], w2. split; [reflexivity|]. rewrite app_nil_r. split; [exact H2|]. reflexivity.
      - destruct (Hs before x w2 (Hi x (or_introl eq_refl)) H2) as [(rs & w' & Ex & H')|(e & w' & Ex & H')].
        + assert (Est : forall acc, step acc x w2 = (Ok (fold_left add_binding rs acc), w')) by (intros acc; unfold step; unfold bind at 1; rewrite Ex; reflexivity).
          destruct (IH (before ++ [(x, rs)]) w' (fun y Hy => Hi y (or_intror Hy)) H') as [(L & w3 & EL & HL & EF)|(e & w3 & He & EF)].
          * left. exists ((x, rs) :: L), w3. cbn [map fst]. split; [now rewrite EL|]. split; [now rewrite <- app_assoc in HL|].
            intros acc. cbn [foldM]. unfold bind at 1. rewrite Est. rewrite EF. cbn [map snd concat]. now rewrite fold_left_app.
          * right. exists e, w3. split; [exact He|]. intros acc. cbn [foldM]. unfold bind at 1. rewrite Est. apply EF.
        + right. exists e, w'. split; [exact H'|]. intros acc. cbn [foldM]. unfold bind at 1. unfold step at 1. unfold bind at 1. rewrite Ex. reflexivity. }
    assert (Es : solve mods (S n) (VList (a :: rest)) b w = bind (foldM step [] bs) (fun result => ret (SList result)) w1).
    { rewrite seq_unfold by assumption. unfold bind at 1. rewrite E1. reflexivity. }
    rewrite Es. clear Es. destruct (H bs [] w1 (incl_refl _) HJ) as [(L & w' & EL & HL & EF)|(e & w' & He & EF)].
    - left. exists L, w'. split; [exact EL|]. split; [exact HL|]. unfold bind at 1. rewrite EF. reflexivity.
    - right. exists e, w'. split; [exact He|]. unfold bind at 1. rewrite EF. reflexivity.
  Qed.
  Lemma seq_exn n a rest b e (w w1 : W) : rest <> [] -> solve mods n (VList [a]) b w = (Exn e, w1) -> solve mods n (VList (a :: rest)) b w = (Exn e, w1).
  Proof. intros Hr E1. destruct n as [|n]; [discriminate|]. rewrite seq_unfold by assumption. unfold bind at 1. rewrite E1. reflexivity. Qed.

  Lemma rule_ok sv r args b vars rb a l bs (w w1 : W) : rule_variables r = Some vars -> ru_body r = VList (a :: l) ->
    bind_head b (tl (ru_head r)) args (filter (fun kv => negb (existsb (String.eqb (fst kv)) vars)) b) = Some rb ->
    sv_solve sv (ru_body r) rb w = (Ok (SList bs), w1) ->
    solve_rule sv r args b w = (Ok (match head_rows bs (tl (ru_head r)) args with Some rs => rs | None => [] end), w1).
  Proof.
    intros Hv Hb Hh E. unfold solve_rule. rewrite Hv.
    assert (Ev : (match b with [] => ret [] | _ :: _ => or_throw TypeErr (Some vars) end) w = (Ok (match b with [] => [] | _ => vars end), w)) by (now destruct b).
    unfold bind at 1. rewrite Ev.
    replace (filter (fun kv : string * value => negb (existsb (String.eqb (fst kv)) match b with [] => [] | _ :: _ => vars end)) b)
      with (filter (fun kv : string * value => negb (existsb (String.eqb (fst kv)) vars)) b) by (now destruct b).
    rewrite Hh, Hb in *. unfold bind at 1. cbn [elements or_throw ret]. unfold bind at 1 2. rewrite E. cbn [sres_items ret].
    destruct (head_rows bs (tl (ru_head r)) args); reflexivity.
  Qed.
  Lemma rule_exn sv r args b vars rb a l e (w w1 : W) : rule_variables r = Some vars -> ru_body r = VList (a :: l) ->
    bind_head b (tl (ru_head r)) args (filter (fun kv => negb (existsb (String.eqb (fst kv)) vars)) b) = Some rb ->
    sv_solve sv (ru_body r) rb w = (Exn e, w1) -> solve_rule sv r args b w = (Exn e, w1).
  Proof.
    intros Hv Hb Hh E. unfold solve_rule. rewrite Hv.
    assert (Ev : (match b with [] => ret [] | _ :: _ => or_throw TypeErr (Some vars) end) w = (Ok (match b with [] => [] | _ => vars end), w)) by (now destruct b).
    unfold bind at 1. rewrite Ev.
    replace (filter (fun kv : string * value => negb (existsb (String.eqb (fst kv)) match b with [] => [] | _ :: _ => vars end)) b)
      with (filter (fun kv : string * value => negb (existsb (String.eqb (fst kv)) vars)) b) by (now destruct b).
    rewrite Hh, Hb in *. unfold bind at 1. cbn [elements or_throw ret]. unfold bind at 1 2. rewrite E. reflexivity.
  Qed.
End Steps.

Lemma firsts_nil l : firsts l = [] <-> l = [].
Proof.
  split; [|intros ->; reflexivity]. intros H. destruct l as [|c l]; [reflexivity|]. assert (Hc : In c (firsts (c :: l))) by (apply In_firsts; now left). rewrite H in Hc. destruct Hc.
Qed.
Lemma row_left i x y : py_str (VList [VStr x; VStr i]) = py_str (VList [VStr y; VStr i]) -> x = y.
Proof. intros H. apply repr_injective in H; [now injection H|reflexivity|reflexivity]. Qed.
Lemma row_right i x y : py_str (VList [VStr i; VStr x]) = py_str (VList [VStr i; VStr y]) -> x = y.
Proof. intros H. apply repr_injective in H; [now injection H|reflexivity|reflexivity]. Qed.

Section Solving.
  Context {E : Type}.
  Variable ask : string -> M E response.
  Variable expand : string -> option term.
  Variable V : vocabulary.
  Variable graph : list triple.
  Hypothesis Hserves : serves expand graph ask.
  Hypothesis Hlabel : expand "rdfs:label" = Some (v_label V).
  Hypothesis Hinstance : expand "wdt:P31" = Some (v_instance V).
  Hypothesis Hbirth : expand "wdt:P19" = Some (v_birth V).
  Hypothesis Hhuman : expand "wd:Q5" = Some (v_human V).
  Hypothesis Horderly : orderly V graph.

  Notation labelled := (labelled V graph).
  Notation is_human := (is_human V graph).
  Notation born_in := (born_in V graph).
  Notation called := (called V graph).
  Notation unlabelled := (unlabelled V graph).
  Notation mods := (wiki_mods E ask).

  Lemma labelled_resource i n : labelled i n -> resource i.
  Proof. intros H. destruct (proj1 (Horderly _ H) eq_refl) as (i' & n' & l & [= ->] & Hr & _). exact Hr. Qed.
  Lemma called_resource n i : called n i -> resource i.
  Proof. intros [H|(_ & t & _ & H)]; eapply labelled_resource; eauto. Qed.
  Lemma born_resource i p : born_in i p -> resource p.
  Proof. intros H. destruct (proj2 (Horderly _ H) eq_refl) as (i' & p' & _ & [= ->] & Hr). exact Hr. Qed.

  (** *** who has the name *)
  Definition named (n i : string) : binding := [("Name", VStr n); ("Id", VStr i)].
  Lemma solve_name k n e out : person_name n ->
    exists e', (exists ids, ids <> [] /\ (forall i, In i ids <-> called n i) /\
        solve mods (S k) (VList [VTuple [VStr "wikidata_label"; VVar "Id"; VVar "Name"]]) [("Name", VStr n)] (st e out) = (Ok (SList (map (named n) ids)), st e' out)) \/
      ((forall i, ~ called n i) /\
        solve mods (S k) (VList [VTuple [VStr "wikidata_label"; VVar "Id"; VVar "Name"]]) [("Name", VStr n)] (st e out) = (Exn (Raise (append "Name not found: " n)), st e' out)).
  Proof.
    intros (_ & Hw & Hp).
    assert (Es : forall w, solve mods (S k) (VList [VTuple [VStr "wikidata_label"; VVar "Id"; VVar "Name"]]) [("Name", VStr n)] (st e out) = w <->
      bind (wikidata_label E ask (solver_at mods k) [VNone; VStr n] (mkCtx "wikidata_label" [] [VVar "Id"; VVar "Name"] [("Name", VStr n)])) (finish [VVar "Id"; VVar "Name"] [("Name", VStr n)]) (st e out) = w).
    { intros w. rewrite (single_solve mods k "wikidata_label" (mkRel "wikidata_label" [] (wikidata_label E ask) None)); [reflexivity|reflexivity|discriminate]. }
    assert (Ef : forall m ids e', finish [VVar "Id"; VVar "Name"] [("Name", VStr n)] (QRows (map VList (map (fun i => [VStr i; VStr m]) ids))) (st e' out) = (Ok (SList (map (named n) (firsts ids))), st (E := E) e' out)).
    { intros m ids e'. rewrite map_map. apply finish_each; [apply row_left|reflexivity|reflexivity]. }
    destruct (names_selected ask expand V graph Hserves Hlabel Horderly n e out (word_texts n Hw)) as (ids & e1 & E1 & H1).
    destruct ids as [|i0 ids].
    - assert (N1 : forall j, ~ labelled j n) by (intros j Hj; now apply (H1 j)).
      destruct (String.eqb_spec n (title n)) as [Et|Et].
      + exists e1. right. split.
        * intros i [H|(_ & t & Ht & H)]; [now apply (N1 i)|]. apply title_titled in Ht; [|exact Hp]. subst t. rewrite <- Et in H. now apply (N1 i).
        * apply Es. unfold wikidata_label, bind. cbn [CoreModule.item nth_error ret]. rewrite E1. cbn [map].
          rewrite <- Et, String.eqb_refl. reflexivity.
      + pose proof (title_word n Hp Hw false) as Hw'. fold (title n) in Hw'.
        destruct (names_selected ask expand V graph Hserves Hlabel Horderly (title n) e1 out (word_texts _ Hw')) as (ids & e2 & E2 & H2).
        exists e2. apply String.eqb_neq in Et.
        assert (Er : bind (wikidata_label E ask (solver_at mods k) [VNone; VStr n] (mkCtx "wikidata_label" [] [VVar "Id"; VVar "Name"] [("Name", VStr n)])) (finish [VVar "Id"; VVar "Name"] [("Name", VStr n)]) (st e out) =
          match ids with [] => (Exn (Raise (append "Name not found: " n)), st e2 out) | _ => (Ok (SList (map (named n) (firsts ids))), st e2 out) end).
        { unfold wikidata_label, bind. cbn [CoreModule.item nth_error ret]. unfold bind. rewrite E1. cbn [map].
          rewrite Et. rewrite E2. destruct ids as [|i1 ids]; [reflexivity|]. rewrite <- (Ef (title n)). reflexivity. }
        destruct ids as [|i1 ids].
        * right. split; [|now apply Es]. intros i [H|(_ & t & Ht & H)]; [now apply (N1 i)|]. apply title_titled in Ht; [|exact Hp]. subst t. now apply (H2 i).
        * left. exists (firsts (i1 :: ids)). split; [intros F; apply (proj1 (firsts_nil _)) in F; discriminate F|]. split; [|now apply Es].
          intros i. rewrite In_firsts, H2. split.
          -- intros H. right. split; [exact N1|]. exists (title n). split; [now apply title_titled|exact H].
          -- intros [H|(_ & t & Ht & H)]; [now destruct (N1 i)|]. apply title_titled in Ht; [|exact Hp]. now subst t.
    - exists e1. left. exists (firsts (i0 :: ids)). split; [intros F; apply (proj1 (firsts_nil _)) in F; discriminate F|]. split.
      + intros i. rewrite In_firsts, H1. split; [now left|]. intros [H|(H & _)]; [exact H|]. destruct (H i0). apply H1. now left.
      + apply Es. unfold wikidata_label, bind. cbn [CoreModule.item nth_error ret]. rewrite E1.
        rewrite <- (Ef n). reflexivity.
  Qed.

  (** *** whether they are human *)
  Lemma solve_person k n i e out : resource i -> exists e',
    (is_human i /\ solve mods (S k) (VList [VTuple [VStr "wikidata_person"; VVar "Id"]]) (named n i) (st e out) = (Ok (SList [named n i]), st e' out)) \/
    (~ is_human i /\ solve mods (S k) (VList [VTuple [VStr "wikidata_person"; VVar "Id"]]) (named n i) (st e out) = (Ok (SList []), st e' out)).
  Proof.
    intros Hr. destruct (human_selected ask expand V graph Hserves Hinstance Hhuman i e out Hr) as (rows & e' & E1 & H1). exists e'.
    assert (Es : solve mods (S k) (VList [VTuple [VStr "wikidata_person"; VVar "Id"]]) (named n i) (st e out) = (Ok (SList (match rows with [] => [] | _ => [named n i] end)), st e' out)).
    { rewrite (single_solve mods k "wikidata_person" (mkRel "wikidata_person" [] (wikidata_person E ask) None)); [|reflexivity|discriminate]. cbn [r_query]. change (db_values (named n i) [VVar "Id"]) with [VStr i]. unfold wikidata_person. unfold bind at 1 2. cbn [CoreModule.item nth_error ret].
      unfold bind at 1. rewrite E1. clear E1 H1. cbn [CoreModule.rows]. unfold CoreModule.rows. cbn [ret].
      destruct rows as [|r rows]; [reflexivity|]. cbn [map]. unfold finish. cbn [fold_left].
      change (add_row [] (VList [VNone])) with [VList [VNone]].
      assert (Ea : fold_left add_row (map VList (map (fun _ => [VNone]) rows)) [VList [VNone]] = [VList [VNone]]) by (induction rows as [|r' rows IH]; [reflexivity|exact IH]).
      rewrite Ea. reflexivity. }
    destruct rows as [|r rows].
    - right. split; [intros H; now apply H1 in H|exact Es].
    - left. split; [now apply H1|exact Es].
  Qed.

  (** *** the people who have the name *)
  Definition body_resolve : list value := [VTuple [VStr "wikidata_label"; VVar "Id"; VVar "Name"]; VTuple [VStr "wikidata_person"; VVar "Id"]].
  Lemma named_apart n x y : dict_eq (named n x) (named n y) = true -> x = y.
  Proof. apply (told_apart "Id"). reflexivity. Qed.
  Lemma solve_people k n e out : person_name n -> exists e',
    (exists ids, (exists i, called n i) /\ (forall i, In i ids <-> called n i /\ is_human i) /\
      solve mods (S k) (VList body_resolve) [("Name", VStr n)] (st e out) = (Ok (SList (map (named n) ids)), st e' out)) \/
    ((forall i, ~ called n i) /\ solve mods (S k) (VList body_resolve) [("Name", VStr n)] (st e out) = (Exn (Raise (append "Name not found: " n)), st e' out)).
  Proof.
    intros Hn. destruct (solve_name k n e out Hn) as (e1 & [(ids & Ne & Hids & E1)|(H & E1)]).
    2:{ exists e1. right. split; [exact H|]. apply seq_exn; [discriminate|exact E1]. }
    set (J := fun (L : list (binding * list binding)) (w : wiki E) => (exists e', w = st e' out) /\
      forall x rs, In (x, rs) L -> exists i, x = named n i /\ called n i /\ ((is_human i /\ rs = [x]) \/ (~ is_human i /\ rs = []))).
    destruct (seq_run mods (S k) (VTuple [VStr "wikidata_label"; VVar "Id"; VVar "Name"]) [VTuple [VStr "wikidata_person"; VVar "Id"]] [("Name", VStr n)]
      (map (named n) ids) (st e out) (st e1 out) J (fun _ _ => False)) as [(L & w' & EL & ((e' & ->) & HL) & Es)|(? & ? & [] & _)].
    - discriminate.
    - exact E1.
    - split; [eauto|intros x rs []].
    - intros before x w Hx ((e2 & ->) & HJ). apply in_map_iff in Hx as (i & <- & Hi). apply Hids in Hi.
      destruct (solve_person k n i e2 out (called_resource n i Hi)) as (e3 & [(Hh & E3)|(Hh & E3)]); left; eexists _, _; (split; [exact E3|]); (split; [eauto|]);
        intros x rs Hin; apply in_app_iff in Hin as [Hin|[[= <- <-]|[]]]; [now apply HJ|exists i; auto 10|now apply HJ|exists i; auto 10].
    - destruct (choose (named n) (concat (map snd L)) (fun i => called n i /\ is_human i)) as (l & Ec & Hl).
      { intros b Hb. apply in_concat in Hb as (rs & Hrs & Hb). apply in_map_iff in Hrs as ((x & rs') & <- & Hx). destruct (HL x rs' Hx) as (i & -> & Hc & [(Hh & ->)|(_ & ->)]).
        - destruct Hb as [<-|[]]. eauto.
        - destruct Hb. }
      rewrite Ec in Es. destruct (bindings_kept (named n) (named_apart n) l []) as (l' & El & Hl'). cbn [map] in El. rewrite El in Es.
      exists e'. left. exists l'. split; [|split; [|exact Es]].
      + destruct ids as [|i0 ids]; [congruence|]. exists i0. apply Hids. now left.
      + intros i. rewrite Hl'. split; [intros [[]|H]; now apply Hl|]. intros (Hc & Hh). right.
        assert (Hi : In (named n i) (map fst L)) by (rewrite EL; apply in_map; now apply Hids). apply in_map_iff in Hi as ((x & rs) & Ex & Hi). cbn in Ex. subst x.
        destruct (HL _ _ Hi) as (i' & Eq & _ & [(_ & ->)|(Hh' & _)]).
        * assert (Hin : In (named n i) (map (named n) l)). { rewrite <- Ec. apply in_concat. exists [named n i]. split; [apply in_map_iff; eexists; split; [|exact Hi]; reflexivity|now left]. }
          apply in_map_iff in Hin as (i2 & [= ->] & H2). exact H2.
        * injection Eq as ->. contradiction.
  Qed.

  (** rules of the mapping *)
  Lemma inferred n p r args b e out : find_relations mods (st e out) p = [mkRel p [] (handle_rule (wi_rb_lens E)) None] -> p <> DISJUNCTION ->
    rules_get p wiki_rules = Some [r] ->
    solve mods (S n) (VList [VTuple (VStr p :: args)]) b (st e out) =
    bind (solve_rule (solver_at mods n) r args b) (fun rs => finish args b (QRows (map VList rs))) (st e out).
  Proof.
    intros Hf Hp Hr. rewrite (single_solve mods n p _ args b _ Hf Hp). cbn [r_query r_pred r_cols]. unfold handle_rule.
    unfold bind at 1 2. cbn [get c_pred c_args c_binding]. change (lget (wi_rb_lens E) (st e out)) with wiki_rules. rewrite Hr. cbn [foldM].
    unfold bind. destruct (solve_rule (solver_at mods n) r args b (st e out)) as [[x|x|] w1]; reflexivity.
  Qed.

  (** variables of a question *)
  Definition dollar (x : string) : Prop := exists k, x = String "$" k.

  Lemma solve_resolve k n x e out : person_name n -> exists e',
    (exists ids, (exists i, called n i) /\ (forall i, In i ids <-> called n i /\ is_human i) /\
      solve mods (2 + k) (VList [VTuple [VStr "resolve_name"; VStr n; VVar x]]) [] (st e out) = (Ok (SList (map (fun i => [(x, VStr i)]) ids)), st e' out)) \/
    ((forall i, ~ called n i) /\ solve mods (2 + k) (VList [VTuple [VStr "resolve_name"; VStr n; VVar x]]) [] (st e out) = (Exn (Raise (append "Name not found: " n)), st e' out)).
  Proof.
    intros Hn. set (r := mkRule [VStr "resolve_name"; VVar "Name"; VVar "Id"] (VList body_resolve)).
    assert (Es : solve mods (2 + k) (VList [VTuple [VStr "resolve_name"; VStr n; VVar x]]) [] (st e out) =
      bind (solve_rule (solver_at mods (S k)) r [VStr n; VVar x] []) (fun rs => finish [VStr n; VVar x] [] (QRows (map VList rs))) (st e out)).
    { apply inferred; [reflexivity|discriminate|reflexivity]. }
    destruct (solve_people k n e out Hn) as (e' & [(ids & Hc & Hids & E1)|(H & E1)]); exists e'.
    - left. exists (firsts ids). split; [exact Hc|]. split; [intros i; now rewrite In_firsts|]. rewrite Es. unfold bind at 1.
      erewrite rule_ok; [|reflexivity|reflexivity|reflexivity|exact E1].
      assert (Eh : head_rows (map (named n) ids) [VVar "Name"; VVar "Id"] [VStr n; VVar x] = Some (map (fun i => [VStr n; VStr i]) ids)).
      { clear. induction ids as [|i ids IH]; [reflexivity|]. cbn [map head_rows]. rewrite IH. reflexivity. }
      cbn [tl ru_head r]. rewrite Eh, map_map. apply finish_each; [apply row_right|reflexivity|].
      intros i. cbn [match_args]. unfold bind. cbn [subscript nth_error ret is_none negb andb orb bget]. change (py_eq (VStr n) (VStr n)) with (String.eqb n n). rewrite String.eqb_refl. reflexivity.
    - right. split; [exact H|]. rewrite Es. unfold bind at 1. erewrite rule_exn; [reflexivity|reflexivity|reflexivity|reflexivity|exact E1].
  Qed.

  (** *** the places where someone was born *)
  Section Place.
    Variables k1 k2 : string.
    Hypothesis Hk : k1 <> k2.
    Notation x1 := (String "$" k1).
    Notation x2 := (String "$" k2).

    Definition of_person (i : string) : binding := [(x1, VStr i); ("PersonId", VStr i)].
    Definition with_place (i p : string) : binding := [(x1, VStr i); ("PersonId", VStr i); ("PlaceId", VStr p)].
    Definition with_label (i : string) (pl : string * string) : binding := [(x1, VStr i); ("PersonId", VStr i); ("PlaceId", VStr (fst pl)); ("Place", VStr (snd pl))].
    Definition asked (i : string) : binding := [(x1, VStr i)].
    Definition answered (il : string * string) : binding := [(x1, VStr (fst il)); (x2, VStr (snd il))].

    Lemma solve_births k i e out : resource i -> exists ps e',
      solve mods (S k) (VList [VTuple [VStr "wikidata_place_of_birth"; VVar "PersonId"; VVar "PlaceId"]]) (of_person i) (st e out) = (Ok (SList (map (with_place i) ps)), st e' out) /\
      forall p, In p ps <-> born_in i p.
    Proof.
      intros Hr. destruct (births_selected ask expand V graph Hserves Hbirth Horderly i e out Hr) as (ps & e' & E1 & H1). exists (firsts ps), e'.
      split; [|intros p; now rewrite In_firsts].
      rewrite (single_solve mods k "wikidata_place_of_birth" (mkRel "wikidata_place_of_birth" [] (wikidata_place_of_birth E ask) None)); [|reflexivity|discriminate].
      cbn [r_query]. change (db_values (of_person i) [VVar "PersonId"; VVar "PlaceId"]) with [VStr i; VNone].
      unfold wikidata_place_of_birth, bind. cbn [CoreModule.item nth_error ret is_none negb]. rewrite E1. cbn [CoreModule.rows]. unfold CoreModule.rows. cbn [ret].
      rewrite map_map. apply finish_each; [apply row_right|reflexivity|reflexivity].
    Qed.
    Lemma solve_label k i p e out : resource p -> exists e',
      (exists ls, ls <> [] /\ (forall l, In l ls <-> labelled p l) /\
        solve mods (S k) (VList [VTuple [VStr "wikidata_label"; VVar "PlaceId"; VVar "Place"]]) (with_place i p) (st e out) = (Ok (SList (map (fun l => with_label i (p, l)) ls)), st e' out)) \/
      (unlabelled p /\ solve mods (S k) (VList [VTuple [VStr "wikidata_label"; VVar "PlaceId"; VVar "Place"]]) (with_place i p) (st e out) = (Exn AttributeErr, st e' out)).
    Proof.
      intros Hr. destruct (labels_selected ask expand V graph Hserves Hlabel p e out Hr) as (ls & e' & E1 & H1). exists e'.
      assert (Es : solve mods (S k) (VList [VTuple [VStr "wikidata_label"; VVar "PlaceId"; VVar "Place"]]) (with_place i p) (st e out) =
        match ls with [] => (Exn AttributeErr, st e' out) | _ => (Ok (SList (map (fun l => with_label i (p, l)) (firsts ls))), st e' out) end).
      { rewrite (single_solve mods k "wikidata_label" (mkRel "wikidata_label" [] (wikidata_label E ask) None)); [|reflexivity|discriminate].
        cbn [r_query]. change (db_values (with_place i p) [VVar "PlaceId"; VVar "Place"]) with [VStr p; VNone].
        unfold wikidata_label, bind. cbn [CoreModule.item nth_error ret]. rewrite E1.
        assert (Ef : finish [VVar "PlaceId"; VVar "Place"] (with_place i p) (QRows (map VList (map (fun l => [VStr p; VStr l]) ls))) (st e' out) =
          (Ok (SList (map (fun l => with_label i (p, l)) (firsts ls))), st (E := E) e' out)).
        { rewrite map_map. apply finish_each; [apply row_right|reflexivity|reflexivity]. }
        destruct ls as [|l ls]; [reflexivity|]. rewrite <- Ef. reflexivity. }
      destruct ls as [|l ls].
      - right. split; [intros l Hl; now apply (H1 l)|exact Es].
      - left. exists (firsts (l :: ls)). split; [intros F; apply (proj1 (firsts_nil _)) in F; discriminate F|]. split; [|exact Es]. intros l'. now rewrite In_firsts.
    Qed.

    Definition body_place : list value := [VTuple [VStr "wikidata_place_of_birth"; VVar "PersonId"; VVar "PlaceId"]; VTuple [VStr "wikidata_label"; VVar "PlaceId"; VVar "Place"]].
    Lemma with_label_apart i a b : dict_eq (with_label i a) (with_label i b) = true -> a = b.
    Proof.
      intros H. apply dict_eq_spec in H. pose proof (H "PlaceId") as Ha. pose proof (H "Place") as Hb. cbn in Ha, Hb.
      apply String.eqb_eq in Ha, Hb. destruct a, b. cbn in *. now subst.
    Qed.
    Lemma solve_labels k i e out : resource i -> exists e',
      (exists pls, (forall pl, In pl pls <-> born_in i (fst pl) /\ labelled (fst pl) (snd pl)) /\ (forall p, born_in i p -> ~ unlabelled p) /\
        solve mods (S k) (VList body_place) (of_person i) (st e out) = (Ok (SList (map (with_label i) pls)), st e' out)) \/
      ((exists p, born_in i p /\ unlabelled p) /\ solve mods (S k) (VList body_place) (of_person i) (st e out) = (Exn AttributeErr, st e' out)).
    Proof.
      intros Hr. destruct (solve_births k i e out Hr) as (ps & e1 & E1 & Hps).
      set (J := fun (L : list (binding * list binding)) (w : wiki E) => (exists e', w = st e' out) /\
        forall x rs, In (x, rs) L -> exists p ls, x = with_place i p /\ born_in i p /\ ls <> [] /\ (forall l, In l ls <-> labelled p l) /\ rs = map (fun l => with_label i (p, l)) ls).
      destruct (seq_run mods (S k) (VTuple [VStr "wikidata_place_of_birth"; VVar "PersonId"; VVar "PlaceId"]) [VTuple [VStr "wikidata_label"; VVar "PlaceId"; VVar "Place"]] (of_person i)
        (map (with_place i) ps) (st e out) (st e1 out) J (fun x w => x = AttributeErr /\ (exists e', w = st e' out) /\ exists p, born_in i p /\ unlabelled p))
        as [(L & w' & EL & ((e' & ->) & HL) & Es)|(x & w' & (-> & (e' & ->) & Hp) & Es)].
      - discriminate.
      - exact E1.
      - split; [eauto|intros x rs []].
      - intros before x w Hx ((e2 & ->) & HJ). apply in_map_iff in Hx as (p & <- & Hp). apply Hps in Hp.
        destruct (solve_label k i p e2 out (born_resource i p Hp)) as (e3 & [(ls & Hl & Hls & E3)|(Hu & E3)]).
        + left. eexists _, _. split; [exact E3|]. split; [eauto|]. intros x rs Hin. apply in_app_iff in Hin as [Hin|[[= <- <-]|[]]]; [now apply HJ|]. exists p, ls. auto.
        + right. eexists _, _. split; [exact E3|]. split; [reflexivity|]. split; eauto.
      - exists e'. left. assert (Hall : forall p, born_in i p -> exists ls, In (with_place i p, map (fun l => with_label i (p, l)) ls) L /\ ls <> [] /\ forall l, In l ls <-> labelled p l).
        { intros p Hp. assert (Hi : In (with_place i p) (map fst L)) by (rewrite EL; apply in_map; now apply Hps). apply in_map_iff in Hi as ((x & rs) & Ex & Hi). cbn in Ex. subst x.
          destruct (HL _ _ Hi) as (p' & ls & Eq & _ & Hn & Hls & ->). injection Eq as <-. eauto. }
        destruct (choose (with_label i) (concat (map snd L)) (fun pl => born_in i (fst pl) /\ labelled (fst pl) (snd pl))) as (l & Ec & Hl).
        { intros b Hb. apply in_concat in Hb as (rs & Hrs & Hb). apply in_map_iff in Hrs as ((x & rs') & <- & Hx). destruct (HL x rs' Hx) as (p & ls & -> & Hp & _ & Hls & ->).
          cbn [snd] in Hb. apply in_map_iff in Hb as (q & <- & Hq). exists (p, q). split; [reflexivity|]. split; [exact Hp|]. now apply Hls. }
        rewrite Ec in Es. destruct (bindings_kept (with_label i) (with_label_apart i) l []) as (l' & El & Hl'). cbn [map] in El. rewrite El in Es.
        exists l'. split; [|split; [|exact Es]].
        + intros (p & q). rewrite Hl'. split; [intros [[]|H]; now apply Hl in H|]. cbn [fst snd]. intros (Hp & Hq). right.
          destruct (Hall p Hp) as (ls & Hi & _ & Hls).
          assert (Hin : In (with_label i (p, q)) (map (with_label i) l)).
          { rewrite <- Ec. apply in_concat. eexists. split; [apply in_map_iff; eexists; split; [|exact Hi]; reflexivity|]. cbn [snd]. apply in_map_iff. exists q. split; [reflexivity|]. now apply Hls. }
          apply in_map_iff in Hin as ((p2 & q2) & [= -> ->] & H2). exact H2.
        + intros p Hp Hu. destruct (Hall p Hp) as (ls & _ & Hn & Hls). destruct ls as [|q ls]; [congruence|]. apply (Hu q). apply Hls. now left.
      - exists e'. right. auto.
    Qed.

    Lemma solve_place k i e out : resource i -> exists e',
      (exists ls, (forall l, In l ls <-> exists p, born_in i p /\ labelled p l) /\ (forall p, born_in i p -> ~ unlabelled p) /\
        solve mods (2 + k) (VList [VTuple [VStr "place_of_birth"; VVar x1; VVar x2]]) (asked i) (st e out) = (Ok (SList (map (fun l => answered (i, l)) ls)), st e' out)) \/
      ((exists p, born_in i p /\ unlabelled p) /\ solve mods (2 + k) (VList [VTuple [VStr "place_of_birth"; VVar x1; VVar x2]]) (asked i) (st e out) = (Exn AttributeErr, st e' out)).
    Proof.
      intros Hr. set (r := mkRule [VStr "place_of_birth"; VVar "PersonId"; VVar "Place"] (VList body_place)).
      assert (Es : solve mods (2 + k) (VList [VTuple [VStr "place_of_birth"; VVar x1; VVar x2]]) (asked i) (st e out) =
        bind (solve_rule (solver_at mods (S k)) r [VVar x1; VVar x2] (asked i)) (fun rs => finish [VVar x1; VVar x2] (asked i) (QRows (map VList rs))) (st e out)).
      { apply inferred; [reflexivity|discriminate|reflexivity]. }
      assert (N21 : String.eqb k2 k1 = false) by (apply String.eqb_neq; congruence).
      assert (Eh : bind_head (asked i) (tl (ru_head r)) [VVar x1; VVar x2] (filter (fun kv => negb (existsb (String.eqb (fst kv)) ["PersonId"; "Place"; "PersonId"; "PlaceId"; "PlaceId"; "Place"])) (asked i)) = Some (of_person i)).
      { cbn. rewrite String.eqb_refl, N21. reflexivity. }
      destruct (solve_labels k i e out Hr) as (e' & [(pls & Hpls & Hu & E1)|(Hp & E1)]); exists e'.
      - left. exists (firsts (map snd pls)). split; [|split; [exact Hu|]].
        + intros l. rewrite In_firsts, in_map_iff. split.
          * intros ((p & q) & <- & Hin). apply Hpls in Hin. eauto.
          * intros (p & Hb & Hl). exists (p, l). split; [reflexivity|]. now apply Hpls.
        + rewrite Es. unfold bind at 1. erewrite rule_ok; [|reflexivity|reflexivity|exact Eh|exact E1].
          assert (Er : head_rows (map (with_label i) pls) [VVar "PersonId"; VVar "Place"] [VVar x1; VVar x2] = Some (map (fun l => [VStr i; VStr l]) (map snd pls))).
          { clear. induction pls as [|pl pls IH]; [reflexivity|]. cbn [map head_rows]. rewrite IH. reflexivity. }
          cbn [tl ru_head r]. rewrite Er, map_map. apply finish_each; [apply row_right|reflexivity|].
          intros l. cbn. rewrite String.eqb_refl, N21. unfold bind. cbn. rewrite ?N21. reflexivity.
      - right. split; [exact Hp|]. rewrite Es. unfold bind at 1. erewrite rule_exn; [reflexivity|reflexivity|reflexivity|exact Eh|exact E1].
    Qed.

    (** *** telling *)
    Definition reports (ls : list string) : sds_store :=
      match ls with
      | [] => []
      | _ => [("output_type", map (fun _ => [("type", VStr "report")]) ls); ("output_report", map (fun l => [("report", VStr l)]) ls)]
      end.
    Lemma reports_more ls l : sds_insert "output_report" ["report"] [VStr l] (sds_insert "output_type" ["type"] [VStr "report"] (reports ls)) = reports (ls ++ [l]).
    Proof. destruct ls as [|a ls]; [reflexivity|]. cbn. now rewrite !map_app. Qed.

    Lemma out_relation e out p cols : In (p, cols) [("output_type", ["type"]); ("output_report", ["report"]); ("output_unknown_word", ["word"])] ->
      find_relations mods (st e out) p = [memory_relation (buffer_select (wi_out_lens E)) (buffer_insert (wi_out_lens E)) p cols].
    Proof. intros [[= <- <-]|[[= <- <-]|[[= <- <-]|[]]]]; reflexivity. Qed.

    Lemma write_run k e out p cols v : In (p, cols) [("output_type", ["type"]); ("output_report", ["report"]); ("output_unknown_word", ["word"])] ->
      sv_write (solver_at mods (S k)) (VTuple [VStr p; v]) (st e out) = (Ok tt, st e (sds_insert p cols [v] out)).
    Proof.
      intros H. cbn [solver_at sv_write]. unfold write_F. unfold bind at 1. cbn [atom_parts ret]. unfold bind at 1. cbn [get]. rewrite (out_relation e out p cols H). reflexivity.
    Qed.

    Definition body_report : list value := [VTuple [VStr "store"; VList [VTuple [VStr "output_type"; VStr "report"]; VTuple [VStr "output_report"; VVar "A"]]]].
    Lemma solve_report k il e ls : 
      solve mods (3 + k) (VList [VTuple [VStr "intent_report"; VVar x2]]) (answered il) (st e (reports ls)) = (Ok (SList [answered il]), st e (reports (ls ++ [snd il]))).
    Proof.
      destruct il as (i & l). cbn [snd]. set (r := mkRule [VStr "intent_report"; VVar "A"] (VList body_report)).
      assert (Es : solve mods (3 + k) (VList [VTuple [VStr "intent_report"; VVar x2]]) (answered (i, l)) (st e (reports ls)) =
        bind (solve_rule (solver_at mods (2 + k)) r [VVar x2] (answered (i, l))) (fun rs => finish [VVar x2] (answered (i, l)) (QRows (map VList rs))) (st e (reports ls))).
      { apply inferred; [reflexivity|discriminate|reflexivity]. }
      assert (N21 : String.eqb k2 k1 = false) by (apply String.eqb_neq; congruence).
      set (rb := answered (i, l) ++ [("A", VStr l)]).
      assert (E1 : solve mods (2 + k) (VList body_report) rb (st e (reports ls)) = (Ok (SList [rb]), st e (reports (ls ++ [l])))).
      { change (2 + k) with (S (S k)). unfold body_report. rewrite (single_solve mods (S k) "store" (mkRel "store" [] q_store None)); [|reflexivity|discriminate].
        cbn [r_query r_pred r_cols]. unfold bind at 1. unfold q_store. unfold bind at 1. cbn [db_values map db_value CoreModule.item nth_error ret c_binding].
        change (bind_variables (VTuple [VStr "output_type"; VStr "report"]) rb) with (VTuple [VStr "output_type"; VStr "report"]).
        change (bind_variables (VTuple [VStr "output_report"; VVar "A"]) rb) with (VTuple [VStr "output_report"; VStr l]).
        cbn [foldM]. unfold bind at 1 2 3. rewrite (write_run k e (reports ls) "output_type" ["type"]) by (cbn; tauto).
        rewrite (write_run k e _ "output_report" ["report"]) by (cbn; tauto). rewrite reports_more. reflexivity. }
      rewrite Es. unfold bind at 1. erewrite rule_ok; [|reflexivity|reflexivity| |exact E1].
      - cbn [tl ru_head r]. change (head_rows [rb] [VVar "A"] [VVar x2]) with (Some [[VStr l]]). cbn [map].
        rewrite finish_row by reflexivity. cbn. rewrite N21, String.eqb_refl. reflexivity.
      - cbn. rewrite N21, String.eqb_refl. reflexivity.
    Qed.

    (** *** the whole question *)
    Definition told_of (i l : string) : Prop := exists p, born_in i p /\ labelled p l.
    Definition told (n l : string) : Prop := exists i, called n i /\ is_human i /\ told_of i l.

    Lemma solve_told k i e ls0 : resource i -> exists ls e', (forall l, In l ls -> told_of i l) /\
      (((forall l, told_of i l -> In l ls) /\ (forall p, born_in i p -> ~ unlabelled p) /\
        exists bs, solve mods (3 + k) (VList [VTuple [VStr "place_of_birth"; VVar x1; VVar x2]; VTuple [VStr "intent_report"; VVar x2]]) (asked i) (st e (reports ls0)) = (Ok (SList bs), st e' (reports (ls0 ++ ls)))) \/
       ((exists p, born_in i p /\ unlabelled p) /\
        solve mods (3 + k) (VList [VTuple [VStr "place_of_birth"; VVar x1; VVar x2]; VTuple [VStr "intent_report"; VVar x2]]) (asked i) (st e (reports ls0)) = (Exn AttributeErr, st e' (reports (ls0 ++ ls))))).
    Proof.
      intros Hr. destruct (solve_place (S k) i e (reports ls0) Hr) as (e1 & [(ls & Hls & Hu & E1)|(Hp & E1)]).
      2:{ exists [], e1. split; [intros l []|]. right. split; [exact Hp|]. rewrite app_nil_r. apply seq_exn; [discriminate|exact E1]. }
      set (J := fun (L : list (binding * list binding)) (w : wiki E) => exists ls1, w = st e1 (reports (ls0 ++ ls1)) /\ (forall l, In l ls1 -> told_of i l) /\
        forall x rs, In (x, rs) L -> exists l, x = answered (i, l) /\ In l ls1).
      destruct (seq_run mods (3 + k) (VTuple [VStr "place_of_birth"; VVar x1; VVar x2]) [VTuple [VStr "intent_report"; VVar x2]] (asked i) (map (fun l => answered (i, l)) ls)
        (st e (reports ls0)) (st e1 (reports ls0)) J (fun _ _ => False)) as [(L & w' & EL & (ls1 & -> & Hl & HL) & Es)|(? & ? & [] & _)].
      - discriminate.
      - exact E1.
      - exists []. rewrite app_nil_r. split; [reflexivity|]. split; [intros l []|intros x rs []].
      - intros before x w Hx (ls1 & -> & Hl & HJ). apply in_map_iff in Hx as (l & <- & Hin). left. exists [answered (i, l)], (st e1 (reports (ls0 ++ (ls1 ++ [l])))).
        split; [rewrite app_assoc; apply (solve_report k (i, l))|]. exists (ls1 ++ [l]). split; [reflexivity|]. split.
        + intros l' Hin'. apply in_app_iff in Hin' as [H|[<-|[]]]; [now apply Hl|]. now apply Hls.
        + intros x rs Hi. apply in_app_iff in Hi as [Hi|[[= <- <-]|[]]].
          * destruct (HJ _ _ Hi) as (l' & -> & H). exists l'. split; [reflexivity|]. apply in_app_iff. now left.
          * exists l. split; [reflexivity|]. apply in_app_iff. right. now left.
      - exists ls1, e1. split; [exact Hl|]. left. split; [|split; [exact Hu|eauto]].
        intros l Ht. assert (Hi : In (answered (i, l)) (map fst L)) by (rewrite EL; apply (in_map (fun l => answered (i, l))); now apply Hls).
        apply in_map_iff in Hi as ((x & rs) & Ex & Hi). cbn in Ex. subst x. destruct (HL _ _ Hi) as (l' & Eq & H). injection Eq as <-. exact H.
    Qed.

    Definition goal (n : string) : list value := [VTuple [VStr "resolve_name"; VStr n; VVar x1]; VTuple [VStr "place_of_birth"; VVar x1; VVar x2]; VTuple [VStr "intent_report"; VVar x2]].
    Lemma solve_goal k n e ls0 : person_name n -> exists ls e', (forall l, In l ls -> told n l) /\
      (((exists i, called n i) /\ (forall l, told n l -> In l ls) /\ (forall i p, called n i -> is_human i -> born_in i p -> ~ unlabelled p) /\
        exists bs, solve mods (3 + k) (VList (goal n)) [] (st e (reports ls0)) = (Ok (SList bs), st e' (reports (ls0 ++ ls)))) \/
       ((forall i, ~ called n i) /\ solve mods (3 + k) (VList (goal n)) [] (st e (reports ls0)) = (Exn (Raise (append "Name not found: " n)), st e' (reports (ls0 ++ ls)))) \/
       ((exists i p, called n i /\ is_human i /\ born_in i p /\ unlabelled p) /\ solve mods (3 + k) (VList (goal n)) [] (st e (reports ls0)) = (Exn AttributeErr, st e' (reports (ls0 ++ ls))))).
    Proof.
      intros Hn. destruct (solve_resolve (S k) n x1 e (reports ls0) Hn) as (e1 & [(ids & Hc & Hids & E1)|(H & E1)]).
      2:{ exists [], e1. split; [intros l []|]. right. left. split; [exact H|]. rewrite app_nil_r. apply seq_exn; [discriminate|exact E1]. }
      set (J := fun (L : list (binding * list binding)) (w : wiki E) => exists e' ls1, w = st e' (reports (ls0 ++ ls1)) /\ (forall l, In l ls1 -> told n l) /\
        forall x rs, In (x, rs) L -> exists i, x = asked i /\ (forall l, told_of i l -> In l ls1) /\ (forall p, born_in i p -> ~ unlabelled p)).
      destruct (seq_run mods (3 + k) (VTuple [VStr "resolve_name"; VStr n; VVar x1]) [VTuple [VStr "place_of_birth"; VVar x1; VVar x2]; VTuple [VStr "intent_report"; VVar x2]] [] (map asked ids)
        (st e (reports ls0)) (st e1 (reports ls0)) J (fun x w => x = AttributeErr /\ (exists i p, called n i /\ is_human i /\ born_in i p /\ unlabelled p) /\
          exists e' ls1, w = st e' (reports (ls0 ++ ls1)) /\ forall l, In l ls1 -> told n l))
        as [(L & w' & EL & (e' & ls1 & -> & Hl & HL) & Es)|(x & w' & (-> & Hp & e' & ls1 & -> & Hl) & Es)].
      - discriminate.
      - exact E1.
      - exists e1, []. rewrite app_nil_r. split; [reflexivity|]. split; [intros l []|intros x rs []].
      - intros before x w Hx (e2 & ls1 & -> & Hl & HJ). apply in_map_iff in Hx as (i & <- & Hin). apply Hids in Hin as (Hci & Hh).
        destruct (solve_told k i e2 (ls0 ++ ls1) (called_resource n i Hci)) as (ls & e3 & Hls & [(Hall & Hu & bs & E3)|((p & Hb & Hu) & E3)]).
        + left. eexists _, _. split; [exact E3|]. exists e3, (ls1 ++ ls). rewrite app_assoc. split; [reflexivity|]. split.
          * intros l H. apply in_app_iff in H as [H|H]; [now apply Hl|]. exists i. auto.
          * intros x rs Hi. apply in_app_iff in Hi as [Hi|[[= <- <-]|[]]].
            -- destruct (HJ _ _ Hi) as (i' & -> & Ha & Hu'). exists i'. split; [reflexivity|]. split; [|exact Hu']. intros l H. apply in_app_iff. left. now apply Ha.
            -- exists i. split; [reflexivity|]. split; [|exact Hu]. intros l H. apply in_app_iff. right. now apply Hall.
        + right. eexists _, _. split; [exact E3|]. split; [reflexivity|]. split; [eauto 10|]. exists e3, (ls1 ++ ls). rewrite app_assoc. split; [reflexivity|].
          intros l H. apply in_app_iff in H as [H|H]; [now apply Hl|]. exists i. auto.
      - exists ls1, e'. split; [exact Hl|]. left. assert (Hall : forall i, called n i -> is_human i -> (forall l, told_of i l -> In l ls1) /\ (forall p, born_in i p -> ~ unlabelled p)).
        { intros i Hci Hh. assert (Hi : In (asked i) (map fst L)) by (rewrite EL; apply in_map; now apply Hids).
          apply in_map_iff in Hi as ((x & rs) & Ex & Hi). cbn in Ex. subst x. destruct (HL _ _ Hi) as (i' & Eq & H). injection Eq as <-. exact H. }
        split; [exact Hc|]. split; [intros l (i & Hci & Hh & Ht); now apply (Hall i Hci Hh)|]. split; [intros i p Hci Hh; now apply (Hall i Hci Hh)|]. eauto.
      - exists ls1, e'. split; [exact Hl|]. right. right. auto.
    Qed.
  End Place.

  (** ** the reply *)
  Lemma type_select t ls : sds_select "output_type" ["type"] [VStr t] (reports ls) = Ok (if String.eqb "report" t then map (fun _ => [VStr "report"]) ls else []).
  Proof.
    destruct ls as [|v ls]; [destruct (String.eqb "report" t); reflexivity|]. unfold reports, sds_select.
    change (sds_get "output_type" [("output_type", map (fun _ : string => [("type", VStr "report")]) (v :: ls)); ("output_report", map (fun l => [("report", VStr l)]) (v :: ls))])
      with (Some (map (fun _ : string => [("type", VStr "report")]) (v :: ls))).
    change (create_dict ["type"] [VStr t]) with [("type", VStr t)].
    induction (v :: ls) as [|c l IH]; [destruct (String.eqb "report" t); reflexivity|]. cbn [map sds_rows]. unfold sds_record_ok. cbn [forallb fst snd bget].
    change (String.eqb "type" "type") with true. cbv iota. change (py_eq (VStr "report") (VStr t)) with (String.eqb "report" t) in *. destruct (String.eqb "report" t); cbn [andb]; [|exact IH].
    change (sds_row [("type", VStr "report")] ["type"]) with (Ok [VStr "report"]). cbv iota. rewrite IH. reflexivity.
  Qed.
  Lemma report_select ls : sds_select "output_report" ["report"] [VNone] (reports ls) = Ok (map (fun l => [VStr l]) ls).
  Proof.
    destruct ls as [|v ls]; [reflexivity|]. unfold reports, sds_select.
    change (sds_get "output_report" [("output_type", map (fun _ : string => [("type", VStr "report")]) (v :: ls)); ("output_report", map (fun l => [("report", VStr l)]) (v :: ls))])
      with (Some (map (fun l => [("report", VStr l)]) (v :: ls))).
    change (create_dict ["report"] [VNone]) with ([] : binding).
    induction (v :: ls) as [|c l IH]; [reflexivity|]. cbn [map sds_rows]. cbn [sds_record_ok forallb].
    change (sds_row [("report", VStr c)] ["report"]) with (Ok [VStr c]). cbv iota. rewrite IH. reflexivity.
  Qed.

  Lemma same_reports n : fold_left add_row (map VList (map (fun _ : string => [VStr "report"]) n)) [VList [VStr "report"]] = [VList [VStr "report"]].
  Proof. induction n as [|a n IH]; [reflexivity|exact IH]. Qed.
  Lemma type_run k t e ls : solve mods (S k) (VList [out "output_type" [VStr t]]) [] (st e (reports ls)) =
    (Ok (SList (if String.eqb "report" t then match ls with [] => [] | _ => [[]] end else [])), st e (reports ls)).
  Proof.
    unfold out. rewrite (single_solve mods k "output_type" _ [VStr t] [] _ (out_relation e (reports ls) "output_type" ["type"] ltac:(cbn; tauto))) by discriminate.
    cbn [memory_relation r_query r_pred r_cols db_values map db_value]. unfold bind at 1. unfold memory_query. unfold bind at 1. cbn [c_pred c_cols]. unfold buffer_select.
    unfold bind at 1. cbn [get]. change (lget (wi_out_lens E) (st e (reports ls))) with (reports ls). rewrite type_select. cbn [ret].
    destruct (String.eqb_spec "report" t) as [<-|N]; [|reflexivity]. destruct ls as [|l ls]; [reflexivity|]. cbn [map]. unfold finish. cbn [fold_left].
    change (add_row [] (VList [VStr "report"])) with [VList [VStr "report"]]. rewrite same_reports. reflexivity.
  Qed.
  Lemma report_run k e ls : solve mods (S k) (VList [out "output_report" [VVar "E1"]]) [] (st e (reports ls)) =
    (Ok (SList (map (fun l => [("E1", VStr l)]) (firsts ls))), st e (reports ls)).
  Proof.
    unfold out. rewrite (single_solve mods k "output_report" _ [VVar "E1"] [] _ (out_relation e (reports ls) "output_report" ["report"] ltac:(cbn; tauto))) by discriminate.
    cbn [memory_relation r_query r_pred r_cols db_values map db_value bget]. unfold bind at 1. unfold memory_query. unfold bind at 1. cbn [c_pred c_cols]. unfold buffer_select.
    unfold bind at 1. cbn [get]. change (lget (wi_out_lens E) (st e (reports ls))) with (reports ls). rewrite report_select. cbn [ret]. rewrite map_map.
    apply finish_each; [|reflexivity|reflexivity]. intros x y H. apply repr_injective in H; [now injection H|reflexivity|reflexivity].
  Qed.
  Lemma firsts_hd l ls : exists ls', firsts (l :: ls) = l :: ls'.
  Proof.
    assert (H : forall ls acc, exists l', fold_left add_once ls acc = acc ++ l').
    { clear. induction ls as [|c ls IH]; intros acc; [exists []; cbn; now rewrite app_nil_r|]. cbn [fold_left]. unfold add_once at 2. destruct (existsb (String.eqb c) acc); [apply IH|].
      destruct (IH (acc ++ [c])) as (l' & ->). exists (c :: l'). now rewrite <- app_assoc. }
    unfold firsts. cbn [fold_left]. change (add_once [] l) with [l]. destruct (H ls [l]) as (l' & ->). now exists l'.
  Qed.
  (** the fourth rule when something has been reported *)
  Lemma found_report k e l ls : exists bs, solve mods (S k) (VList [out "output_type" [VStr "report"]; out "output_report" [VVar "E1"]]) [] (st e (reports (l :: ls))) =
    (Ok (SList ([("E1", VStr l)] :: bs)), st e (reports (l :: ls))).
  Proof.
    rewrite seq_unfold by discriminate. unfold bind at 1. rewrite type_run. cbn [String.eqb Ascii.eqb Bool.eqb]. unfold bind at 1. cbn [sres_items ret foldM]. unfold bind at 1 2 3.
    rewrite report_run. cbn [sres_items ret]. unfold bind. cbn [sres_items ret]. destruct (firsts_hd l ls) as (l' & ->). cbn [map fold_left].
    change (add_binding [] [("E1", VStr l)]) with [[("E1", VStr l)]].
    assert (H : forall xs acc, exists ys, fold_left add_binding xs acc = acc ++ ys).
    { clear. induction xs as [|c xs IH]; intros acc; [exists []; cbn; now rewrite app_nil_r|]. cbn [fold_left]. unfold add_binding at 2. destruct (dict_in c acc); [apply IH|].
      destruct (IH (acc ++ [c])) as (ys & ->). exists (c :: ys). now rewrite <- app_assoc. }
    destruct (H (map (fun l => [("E1", VStr l)]) l') [[("E1", VStr l)]]) as (ys & Ey). exists ys. rewrite Ey. reflexivity.
  Qed.
  Lemma not_found k t p v e ls : String.eqb "report" t = false \/ ls = [] ->
    solve mods (S k) (VList [out "output_type" [VStr t]; out p v]) [] (st e (reports ls)) = (Ok (SList []), st e (reports ls)).
  Proof.
    intros H. rewrite seq_unfold by discriminate. unfold bind at 1. rewrite type_run. destruct H as [-> | ->]; [reflexivity|]. now destruct (String.eqb "report" t).
  Qed.

  Lemma loop_skip slv (r : grule (@wmean (wiki E))) rest (w0 : wiki E) : k_args (g_ante r) = [] -> no_condition (w_if (g_mean r)) = false ->
    slv (w_if (g_mean r)) [] w0 = (Ok (SList []), w0) ->
    find_rule_loop slv [] [] (r :: rest) None [] false w0 = find_rule_loop slv [] [] rest None [] false w0.
  Proof.
    intros Ha Hc Es. change (find_rule_loop slv [] [] (r :: rest) None [] false w0) with
      (bind (if no_condition (w_if (g_mean r)) then ret (Some r, init_binding (k_args (g_ante r)) [] [], true)
             else bind (slv (w_if (g_mean r)) (init_binding (k_args (g_ante r)) [] [])) (fun x => match x with
               | SList [] => ret (None, init_binding (k_args (g_ante r)) [] [], false)
               | SList (b1 :: _) => ret (Some r, b1, true)
               | SIter _ O => ret (None, init_binding (k_args (g_ante r)) [] [], false)
               | SIter _ (S _) => throw TypeErr end))
        (fun step => let '(result', b', found') := step in
          if (found' && negb (hash_in (g_hash r) []))%bool then ret (result', b', found') else find_rule_loop slv [] [] rest result' b' found') w0).
    rewrite Ha, Hc. cbn [init_binding]. unfold bind at 1. unfold bind at 1. rewrite Es. reflexivity.
  Qed.
  Lemma loop_take slv (r : grule (@wmean (wiki E))) rest (w0 : wiki E) b1 bs : k_args (g_ante r) = [] -> no_condition (w_if (g_mean r)) = false ->
    slv (w_if (g_mean r)) [] w0 = (Ok (SList (b1 :: bs)), w0) ->
    find_rule_loop slv [] [] (r :: rest) None [] false w0 = (Ok (Some r, b1, true), w0).
  Proof.
    intros Ha Hc Es. change (find_rule_loop slv [] [] (r :: rest) None [] false w0) with
      (bind (if no_condition (w_if (g_mean r)) then ret (Some r, init_binding (k_args (g_ante r)) [] [], true)
             else bind (slv (w_if (g_mean r)) (init_binding (k_args (g_ante r)) [] [])) (fun x => match x with
               | SList [] => ret (None, init_binding (k_args (g_ante r)) [] [], false)
               | SList (b1 :: _) => ret (Some r, b1, true)
               | SIter _ O => ret (None, init_binding (k_args (g_ante r)) [] [], false)
               | SIter _ (S _) => throw TypeErr end))
        (fun step => let '(result', b', found') := step in
          if (found' && negb (hash_in (g_hash r) []))%bool then ret (result', b', found') else find_rule_loop slv [] [] rest result' b' found') w0).
    rewrite Ha, Hc. cbn [init_binding]. unfold bind at 1. unfold bind at 1. rewrite Es. reflexivity.
  Qed.

  Definition replied (ls : list string) : outcome value := match ls with [] => Exn (Raise "No rule found") | l :: _ => Ok (VStr l) end.
  Lemma reply_run k e ls : generate_output (grammar_rules (wiki_replies E)) (solve mods (S k)) (wi_out_lens E) (S k) (st e (reports ls)) = (replied ls, st e []).
  Proof.
    assert (Ef : exists b1, match ls with [] => True | l :: _ => b1 = [("E1", VStr l)] end /\
      find_rule (grammar_rules (wiki_replies E)) (solve mods (S k)) [] "s" [] (st e (reports ls)) =
      (Ok (match ls with [] => (None, [], false) | _ => (Some (write_rule [phrase "text" ["E1"]] [out "output_type" [VStr "report"]; out "output_report" [VVar "E1"]]), b1, true) end), st e (reports ls))).
    { unfold find_rule. change (find_rules (grammar_rules (wiki_replies E)) "s" (length (@nil value))) with (wiki_replies E). unfold wiki_replies.
      rewrite loop_skip; [|reflexivity|reflexivity|apply type_run].
      rewrite loop_skip; [|reflexivity|reflexivity|apply type_run].
      rewrite loop_skip; [|reflexivity|reflexivity|cbn [write_rule new_rule g_mean w_if]; apply not_found; now left].
      destruct ls as [|l ls].
      - exists []. split; [exact I|]. rewrite loop_skip; [|reflexivity|reflexivity|cbn [write_rule new_rule g_mean w_if]; apply not_found; now right]. reflexivity.
      - exists [("E1", VStr l)]. split; [reflexivity|]. destruct (found_report k e l ls) as (bs & Eb). eapply loop_take; [reflexivity|reflexivity|exact Eb]. }
    destruct Ef as (b1 & Hb & Ef). unfold generate_output. cbn [generate_node]. unfold bind at 1. unfold generate_node_F. unfold bind at 1. rewrite Ef.
    destruct ls as [|l ls]; [reflexivity|]. subst b1. reflexivity.
  Qed.
End Solving.
