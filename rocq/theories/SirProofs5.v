(** * Running the questions of SIR *)

From Coq Require Import ZArith String Ascii List Bool Arith Lia Relations.
From Verif Require Import Py PyFacts ReprProofs Effects EffectsFacts Solver CoreModule CoreProofs InferenceModule Sql SqliteDataSource DataSpec SqliteProofs2
  SimpleDataSource Memory MemoryProofs Pipeline FragmentModel TalkModel SirModel SirSpec SirProofs2 SirProofs4.
Import ListNotations.
Local Open Scope nat_scope.
Local Open Scope string_scope.
Local Open Scope list_scope.

(** ** what is there, once *)
Definition add_once (acc : list string) (c : string) : list string := if existsb (String.eqb c) acc then acc else acc ++ [c].
Definition firsts (l : list string) : list string := fold_left add_once l [].
Lemma fold_once_In l : forall acc c, In c (fold_left add_once l acc) <-> In c acc \/ In c l.
Proof.
  induction l as [|a l IH]; intros acc c; cbn [fold_left In]; [tauto|]. rewrite IH. unfold add_once.
  destruct (existsb (String.eqb a) acc) eqn:E.
  - apply existsb_exists in E as (a' & Ha & E). apply String.eqb_eq in E as <-. split; [tauto|]. intros [H|[<-|H]]; auto.
  - rewrite in_app_iff. cbn [In]. tauto.
Qed.
Lemma In_firsts l c : In c (firsts l) <-> In c l.
Proof. unfold firsts. rewrite fold_once_In. cbn. tauto. Qed.

Lemma repr_row x c d : String.eqb (py_str (VList [VStr x; VStr c])) (py_str (VList [VStr x; VStr d])) = String.eqb d c.
Proof.
  destruct (String.eqb_spec d c) as [->|N]; [apply String.eqb_refl|]. apply String.eqb_neq. intros E. apply N.
  apply repr_injective in E; [now injection E|reflexivity|reflexivity].
Qed.
Lemma rows_once x l : forall acc,
  fold_left add_row (map (fun c => VList [VStr x; VStr c]) l) (map (fun c => VList [VStr x; VStr c]) acc) =
  map (fun c => VList [VStr x; VStr c]) (fold_left add_once l acc).
Proof.
  induction l as [|c l IH]; intros acc; [reflexivity|]. cbn [map fold_left]. rewrite <- IH. f_equal. unfold add_row, add_once.
  assert (E : existsb (fun r => String.eqb (py_str r) (py_str (VList [VStr x; VStr c]))) (map (fun c => VList [VStr x; VStr c]) acc) = existsb (String.eqb c) acc).
  { induction acc as [|a acc IHa]; [reflexivity|]. cbn [map existsb]. now rewrite IHa, repr_row. }
  rewrite E. destruct (existsb (String.eqb c) acc); [reflexivity|]. now rewrite map_app.
Qed.

Lemma map_repeat {A B} (f : A -> B) a k : map f (repeat a k) = repeat (f a) k.
Proof. induction k; cbn; congruence. Qed.

(** one of them; nothing is known if nothing is known of one of them *)
Fixpoint any_of (l : list (option bool)) : option bool :=
  match l with
  | [] => Some false
  | r :: rest => match r, any_of rest with Some a, Some b => Some (a || b) | _, _ => None end
  end.

Section Facts.
  Variable facts : list (string * string).

  Definition succs (x : string) : list string := firsts (map snd (filter (fun f => String.eqb (fst f) x) facts)).
  Lemma In_succs x c : In c (succs x) <-> In (x, c) facts.
  Proof.
    unfold succs. rewrite In_firsts, in_map_iff. split.
    - intros ((u & v) & <- & H). apply filter_In in H as (H & E). apply String.eqb_eq in E as <-. exact H.
    - intros H. exists (x, c). split; [reflexivity|]. apply filter_In. split; [exact H|]. apply String.eqb_refl.
  Qed.

  Notation st out := (state (rows_of facts) out).
  Let gs : list given := map (fun f => mkGiven ["entity"; "type"] [VStr (fst f); VStr (snd f)]) facts.
  Lemma gs_rows : rows_of facts = map (row_of ["entity"; "type"]) gs.
  Proof. unfold gs, rows_of. rewrite map_map. reflexivity. Qed.

  Lemma select_run values out : length values = 2 -> forallb storable values = true ->
    sir_select "isa" ["entity"; "type"] values (st out) = (Ok (spec_select ["entity"; "type"] values gs), st out).
  Proof.
    intros El Es. unfold sir_select. erewrite on_conn_run.
    2:{ change (lget db_lens (st out)) with (sir_db (st out)).
        apply (sq_select_run "isa" (mkTbl ["entity"; "type"] [] (rows_of facts)) ["entity"; "type"] values); [|reflexivity|apply gs_rows].
        constructor; try reflexivity; try discriminate; auto.
        - intros c [<-|[<-|[]]]; reflexivity.
        - apply incl_refl. }
    reflexivity.
  Qed.

  Lemma isa_solve n args b out : length (db_values b args) = 2 -> forallb storable (db_values b args) = true ->
    solve sir_mods (S n) (VList [VTuple (VStr "isa" :: args)]) b (st out) =
    finish args b (QRows (map VList (spec_select ["entity"; "type"] (db_values b args) gs))) (st out).
  Proof.
    intros El Es. erewrite single_solve; [|reflexivity|discriminate]. cbn [r_query memory_relation r_pred r_cols]. unfold memory_query. cbn [c_pred c_cols].
    unfold bind at 1 2. rewrite select_run by assumption. reflexivity.
  Qed.

  Lemma selected_next x : spec_select ["entity"; "type"] [VStr x; VNone] gs = map (fun c => [VStr x; VStr c]) (map snd (filter (fun f => String.eqb (fst f) x) facts)).
  Proof.
    unfold spec_select, gs. clear. induction facts as [|(u & v) fs IH]; [reflexivity|]. cbn [map filter fst snd].
    change (fits ["entity"; "type"] [VStr x; VNone] (mkGiven ["entity"; "type"] [VStr u; VStr v])) with ((false || py_eq (VStr u) (VStr x)) && (true && true))%bool.
    cbn [orb andb]. rewrite andb_true_r. change (py_eq (VStr u) (VStr x)) with (String.eqb u x).
    destruct (String.eqb_spec u x) as [->|N]; [|exact IH]. cbn [map snd]. f_equal. exact IH.
  Qed.
  Lemma selected_both x y : spec_select ["entity"; "type"] [VStr x; VStr y] gs =
    repeat [VStr x; VStr y] (length (filter (fun f => String.eqb (fst f) x && String.eqb (snd f) y) facts)).
  Proof.
    unfold spec_select, gs. clear. induction facts as [|(u & v) fs IH]; [reflexivity|]. cbn [map filter fst snd].
    change (fits ["entity"; "type"] [VStr x; VStr y] (mkGiven ["entity"; "type"] [VStr u; VStr v])) with ((false || py_eq (VStr u) (VStr x)) && ((false || py_eq (VStr v) (VStr y)) && true))%bool.
    cbn [orb andb]. rewrite andb_true_r. change (py_eq (VStr u) (VStr x)) with (String.eqb u x). change (py_eq (VStr v) (VStr y)) with (String.eqb v y).
    destruct (String.eqb_spec u x) as [->|N]; [|exact IH]. destruct (String.eqb_spec v y) as [->|N]; [|exact IH]. cbn [andb length repeat map]. f_equal. exact IH.
  Qed.

  Definition direct (x y : string) : bool := existsb (String.eqb y) (succs x).
  Lemma direct_spec x y : direct x y = true <-> In (x, y) facts.
  Proof.
    unfold direct. rewrite existsb_exists. split.
    - intros (c & Hc & E). apply String.eqb_eq in E as <-. now apply In_succs.
    - intros H. exists y. split; [now apply In_succs|apply String.eqb_refl].
  Qed.
  Lemma direct_count x y : (match length (filter (fun f => String.eqb (fst f) x && String.eqb (snd f) y) facts) with 0 => false | _ => true end) = direct x y.
  Proof.
    destruct (direct x y) eqn:E.
    - apply direct_spec in E.
      assert (H : In (x, y) (filter (fun f => String.eqb (fst f) x && String.eqb (snd f) y) facts)) by (apply filter_In; split; [exact E|]; cbn; now rewrite !String.eqb_refl).
      destruct (filter _ facts); [destruct H|reflexivity].
    - destruct (filter _ facts) as [|(u & v) l] eqn:F; [reflexivity|]. exfalso.
      assert (H : In (u, v) (filter (fun f => String.eqb (fst f) x && String.eqb (snd f) y) facts)) by (rewrite F; now left).
      apply filter_In in H as (H & H1). cbn in H1. apply andb_prop in H1 as (H1 & H2). apply String.eqb_eq in H1 as ->. apply String.eqb_eq in H2 as ->.
      apply direct_spec in H. congruence.
  Qed.

  Lemma isa_bound n p q b x y out : bget p b = Some (VStr x) -> bget q b = Some (VStr y) ->
    solve sir_mods (S n) (VList [VTuple [VStr "isa"; VVar p; VVar q]]) b (st out) = (Ok (SList (if direct x y then [b] else [])), st out).
  Proof.
    intros Ep Eq. assert (E : db_values b [VVar p; VVar q] = [VStr x; VStr y]) by (cbn; now rewrite Ep, Eq).
    rewrite isa_solve; rewrite E; [|reflexivity|reflexivity]. rewrite selected_both, <- direct_count.
    rewrite map_repeat. rewrite finish_same; [|reflexivity|cbn [match_args]; now rewrite Ep, Eq].
    destruct (length _); reflexivity.
  Qed.
  Lemma isa_next n x y out :
    solve sir_mods (S n) (VList [VTuple [VStr "isa"; VVar "A"; VVar "C"]]) [("A", VStr x); ("B", VStr y)] (st out) =
    (Ok (SList (map (fun c => [("A", VStr x); ("B", VStr y); ("C", VStr c)]) (succs x))), st out).
  Proof.
    rewrite isa_solve; [|reflexivity|reflexivity].
    change (db_values [("A", VStr x); ("B", VStr y)] [VVar "A"; VVar "C"]) with [VStr x; VNone]. rewrite selected_next.
    unfold finish. rewrite map_map. pose proof (rows_once x (map snd (filter (fun f => String.eqb (fst f) x) facts)) []) as E. cbn [map] in E. rewrite E.
    fold (firsts (map snd (filter (fun f => String.eqb (fst f) x) facts))). fold (succs x). clear E.
    assert (Ec : forall w : sir, check_first_row (map (fun c => VList [VStr x; VStr c]) (succs x)) [VVar "A"; VVar "C"] w = (Ok tt, w)) by (now destruct (succs x)).
    unfold bind at 1. rewrite Ec. unfold create_results.
    assert (Ef : forall l acc (w : sir), foldM (fun results v => bind (match_args v [("A", VStr x); ("B", VStr y)] 0 [VVar "A"; VVar "C"] [("A", VStr x); ("B", VStr y)] false)
        (fun rc => let '(result, conflict) := rc in if conflict then ret results else ret (results ++ [result]))) acc (map (fun c => VList [VStr x; VStr c]) l) w =
      (Ok (acc ++ map (fun c => [("A", VStr x); ("B", VStr y); ("C", VStr c)]) l), w)).
    { induction l as [|c l IH]; intros acc w; [cbn; now rewrite app_nil_r|]. cbn [map foldM]. unfold bind at 1 2. cbn. unfold bind at 1. cbn. rewrite IH. now rewrite <- app_assoc. }
    unfold bind at 1. rewrite Ef. reflexivity.
  Qed.

  (** ** chains *)

  (** whether there is a chain, with recursion limit [n] *)
  Fixpoint chase (n : nat) (x y : string) : option bool :=
    match n with
    | 0 => None
    | S n' =>
        match n' with
        | 0 => None
        | S _ => match any_of (map (fun c => chase n' c y) (succs x)) with Some r => Some (direct x y || r) | None => None end
        end
    end.

  Lemma chase_S n x y : chase (S (S n)) x y = match any_of (map (fun c => chase (S n) c y) (succs x)) with Some r => Some (direct x y || r) | None => None end.
  Proof. reflexivity. Qed.

  (** the ways in which the rules are used *)
  Definition called (b : binding) (p q : string) (x y : string) : Prop :=
    (b = [("A", VStr x); ("B", VStr y)] /\ p = "A" /\ q = "B") \/
    (b = [("A", VStr y); ("B", VStr x)] /\ p = "B" /\ q = "A") \/
    (exists z, b = [("A", VStr z); ("B", VStr y); ("C", VStr x)] /\ p = "C" /\ q = "B").
  Lemma called_values b p q x y : called b p q x y -> bget p b = Some (VStr x) /\ bget q b = Some (VStr y).
  Proof. intros [(-> & -> & ->)|[(-> & -> & ->)|(z & -> & -> & ->)]]; split; reflexivity. Qed.

  Definition shows (b : binding) (x y : string) : Prop := bget "A" b = Some (VStr x) /\ bget "B" b = Some (VStr y).
  Lemma shown_rows bs x y p q : (forall b, In b bs -> shows b x y) ->
    head_rows bs [VVar "A"; VVar "B"] [VVar p; VVar q] = Some (repeat [VStr x; VStr y] (length bs)).
  Proof.
    induction bs as [|b bs IH]; intros H; [reflexivity|]. cbn [head_rows head_row]. destruct (H b (or_introl eq_refl)) as (-> & ->).
    rewrite IH; [reflexivity|]. intros b' Hb. apply H. now right.
  Qed.

  Lemma add_binding_grows bs acc : forall b, In b (fold_left add_binding bs acc) -> In b acc \/ In b bs.
  Proof.
    revert acc. induction bs as [|a bs IH]; intros acc b H; [now left|]. cbn [fold_left] in H. apply IH in H as [H|H]; [|right; now right].
    unfold add_binding in H. destruct (dict_in a acc); [now left|]. apply in_app_iff in H as [H|[<-|[]]]; [now left|right; now left].
  Qed.
  Lemma add_binding_keeps bs : forall acc, acc <> [] -> fold_left add_binding bs acc <> [].
  Proof.
    induction bs as [|a bs IH]; intros acc H; [exact H|]. cbn [fold_left]. apply IH. unfold add_binding. destruct (dict_in a acc); [exact H|].
    destruct acc; discriminate.
  Qed.

  Lemma followed n x y out : (forall c b, b = [("A", VStr x); ("B", VStr y); ("C", VStr c)] ->
      solve sir_mods (S n) (VList [VTuple [VStr "proper_isa"; VVar "C"; VVar "B"]]) b (st out) =
      match chase (S n) c y with None => (OutOfFuel, st out) | Some r => (Ok (SList (if r then [b] else [])), st out) end) ->
    match any_of (map (fun c => chase (S n) c y) (succs x)) with
    | None => solve sir_mods (S n) (body_of "proper_isa" 1) [("A", VStr x); ("B", VStr y)] (st out) = (OutOfFuel, st out)
    | Some r => exists bs, solve sir_mods (S n) (body_of "proper_isa" 1) [("A", VStr x); ("B", VStr y)] (st out) = (Ok (SList bs), st out) /\
        (forall b, In b bs -> shows b x y) /\ (bs = [] <-> r = false)
    end.
  Proof.
    intros Hc. change (body_of "proper_isa" 1) with (VList [VTuple [VStr "isa"; VVar "A"; VVar "C"]; VTuple [VStr "proper_isa"; VVar "C"; VVar "B"]]).
    set (step := fun acc b' => bind (solve_atoms sir_mods (solver_at sir_mods n) [VTuple [VStr "proper_isa"; VVar "C"; VVar "B"]] b')
                   (fun rr => bind (sres_items rr) (fun rs => ret (fold_left add_binding rs acc)))).
    assert (Ef : forall l acc, (forall b, In b acc -> shows b x y) ->
      match any_of (map (fun c => chase (S n) c y) l) with
      | None => foldM step acc (map (fun c => [("A", VStr x); ("B", VStr y); ("C", VStr c)]) l) (st out) = (OutOfFuel, st out)
      | Some r => exists bs, foldM step acc (map (fun c => [("A", VStr x); ("B", VStr y); ("C", VStr c)]) l) (st out) = (Ok bs, st out) /\
          (forall b, In b bs -> shows b x y) /\ (bs = [] <-> acc = [] /\ r = false)
      end).
    { induction l as [|c l IH]; intros acc Ha.
      { cbn [map any_of foldM]. exists acc. split; [reflexivity|]. split; [exact Ha|]. tauto. }
      cbn [map any_of foldM]. unfold step at 1 3. unfold bind at 1 2 4 5.
      pose proof (Hc c _ eq_refl) as E. unfold solve in E. cbn [solver_at sv_solve] in E. unfold solve_F in E.
      rewrite E. destruct (chase (S n) c y) as [r|]; [|reflexivity].
      set (b := [("A", VStr x); ("B", VStr y); ("C", VStr c)]).
      set (acc1 := fold_left add_binding (if r then [b] else []) acc).
      assert (H1 : forall b', In b' acc1 -> shows b' x y).
      { intros b' Hb. apply add_binding_grows in Hb as [Hb|Hb]; [now apply Ha|]. destruct r; [|destruct Hb]. destruct Hb as [<-|[]]. split; reflexivity. }
      specialize (IH acc1 H1). unfold bind. cbn [sres_items ret]. fold acc1.
      destruct (any_of (map (fun c0 => chase (S n) c0 y) l)) as [s|]; [|exact IH].
      destruct IH as (bs & E2 & E3 & E4). exists bs. split; [exact E2|]. split; [exact E3|]. rewrite E4.
      assert (H2 : acc1 = [] <-> acc = [] /\ r = false).
      { unfold acc1. destruct r; cbn [fold_left]; [|tauto]. split; [|intros (_ & H); discriminate]. unfold add_binding. destruct (dict_in b acc) eqn:D.
        - intros ->. discriminate.
        - intros H. now destruct acc. }
      rewrite H2. destruct r, s; cbn; intuition discriminate. }
    specialize (Ef (succs x) [] (fun b H => match H with end)).
    assert (Es : solve sir_mods (S n) (VList [VTuple [VStr "isa"; VVar "A"; VVar "C"]; VTuple [VStr "proper_isa"; VVar "C"; VVar "B"]]) [("A", VStr x); ("B", VStr y)] (st out) =
      bind (foldM step [] (map (fun c => [("A", VStr x); ("B", VStr y); ("C", VStr c)]) (succs x))) (fun result => ret (SList result)) (st out)).
    { pose proof (isa_next n x y out) as E. unfold solve in E |- *. cbn [solver_at sv_solve] in E |- *. unfold solve_F in E |- *. cbn [solve_atoms] in E |- *.
      unfold bind at 1. rewrite E. reflexivity. }
    rewrite Es. unfold bind. destruct (any_of _) as [r|].
    - destruct Ef as (bs & E1 & E2 & E3). exists bs. rewrite E1. split; [reflexivity|]. split; [exact E2|]. rewrite E3. tauto.
    - rewrite Ef. reflexivity.
  Qed.

  Lemma proper_run out n : forall x y b p q, called b p q x y ->
    solve sir_mods n (VList [VTuple [VStr "proper_isa"; VVar p; VVar q]]) b (st out) =
    match chase n x y with None => (OutOfFuel, st out) | Some r => (Ok (SList (if r then [b] else [])), st out) end.
  Proof.
    induction n as [|n IH]; intros x y b p q Hb; [reflexivity|].
    rewrite (inferred n "proper_isa" [rule_at "proper_isa" 0; rule_at "proper_isa" 1]); [|reflexivity|discriminate|reflexivity].
    unfold bind at 1. rewrite rule_rows_fold. cbn [fold_rules]. unfold bind at 1.
    assert (Hr : exists b1, shows b1 x y /\
      bind_head b [VVar "A"; VVar "B"] [VVar p; VVar q] (filter (fun kv => negb (existsb (String.eqb (fst kv)) ["A"; "B"; "A"; "B"])) b) = Some b1).
    { destruct Hb as [(-> & -> & ->)|[(-> & -> & ->)|(z & -> & -> & ->)]]; (eexists; split; [|reflexivity]; split; reflexivity). }
    assert (Hr2 : bind_head b [VVar "A"; VVar "B"] [VVar p; VVar q] (filter (fun kv => negb (existsb (String.eqb (fst kv)) ["A"; "B"; "A"; "C"; "B"])) b) =
      Some [("A", VStr x); ("B", VStr y)]).
    { destruct Hb as [(-> & -> & ->)|[(-> & -> & ->)|(z & -> & -> & ->)]]; reflexivity. }
    destruct Hr as (b1 & (Ha1 & Hb1) & Hr). destruct n as [|n].
    { erewrite rule_fuel; [reflexivity|reflexivity|reflexivity|exact Hr|reflexivity]. }
    erewrite rule_ok; [|reflexivity|reflexivity|exact Hr|apply (isa_bound n "A" "B" b1 x y out Ha1 Hb1)].
    change (tl (ru_head (rule_at "proper_isa" 0))) with [VVar "A"; VVar "B"].
    unfold bind at 1. rewrite chase_S.
    pose proof (followed n x y out) as Hf.
    specialize (Hf (fun c b' E => IH c y b' "C" "B" (or_intror (or_intror (ex_intro _ x (conj E (conj eq_refl eq_refl))))))).
    destruct (any_of (map (fun c => chase (S n) c y) (succs x))) as [r|] eqn:Ea.
    - destruct Hf as (bs & E1 & E2 & E3).
      erewrite rule_ok; [|reflexivity|reflexivity|exact Hr2|exact E1].
      change (tl (ru_head (rule_at "proper_isa" 1))) with [VVar "A"; VVar "B"].
      rewrite (shown_rows bs x y p q E2).
      replace (match head_rows (if direct x y then [b1] else []) [VVar "A"; VVar "B"] [VVar p; VVar q] with Some rs => rs | None => [] end)
        with (repeat [VStr x; VStr y] (if direct x y then 1 else 0)).
      2:{ destruct (direct x y); [|reflexivity]. rewrite (shown_rows [b1] x y); [reflexivity|]. intros b' [<-|[]]. split; assumption. }
      cbn [app]. cbn [ret]. rewrite <- repeat_app, map_repeat.
      destruct (called_values _ _ _ _ _ Hb) as (Ep & Eq).
      rewrite finish_same; [|reflexivity|cbn [match_args]; now rewrite Ep, Eq].
      destruct (direct x y); [reflexivity|]. cbn [plus orb]. destruct r.
      + destruct bs as [|b0 bs]; [|reflexivity]. destruct E3 as (E3 & _). discriminate (E3 eq_refl).
      + destruct E3 as (_ & E3). now rewrite (E3 eq_refl).
    - erewrite rule_fuel; [|reflexivity|reflexivity|exact Hr2|exact Hf]. reflexivity.
  Qed.
End Facts.
