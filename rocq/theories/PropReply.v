(** * Property C106: the replies of Chat-80's intents *)

From Coq Require Import ZArith QArith Qabs String Ascii List Bool Lia Arith Sorted Permutation.
From Verif Require Import Py PyFacts Effects EffectsFacts Earley Atoms Solver CoreModule CoreSpec CoreProofs CoreProofs2 CoreProofs3 InferenceModule SimpleDataSource Memory
  Grammar Generator DatalogSpec DatalogProofs FolSpec FolProofs2 FolProofs3 FolProofs4
  TalkSpec TalkModel TalkProofs3 TalkProofs4 PropFol PropSystem2 PropFragment PropFragment2 PropTalk ReplyModel ReplyProofs.
Import ListNotations.
Close Scope Q_scope.
Local Open Scope nat_scope.
Local Open Scope string_scope.
Local Open Scope list_scope.

(** ** what a table looks like *)

(** a number without its fraction *)
Inductive whole_part (q : Q) (z : Z) : Prop :=
| whole_positive : (0 <= q)%Q -> (inject_Z z <= q)%Q -> (q < inject_Z (z + 1))%Q -> whole_part q z
| whole_negative : (q <= 0)%Q -> (q <= inject_Z z)%Q -> (inject_Z (z - 1) < q)%Q -> whole_part q z.

Inductive cell_shown : value -> string -> value -> Prop :=
| shown_plain c : (forall q, c <> VFloat q) -> cell_shown c "" c
| shown_with_unit s u : u <> "" -> cell_shown (VStr s) u (VStr (append s (append " " u)))
| shown_number q z : whole_part q z -> cell_shown (VFloat q) "" (VStr (py_str (VInt z)))
| shown_number_with_unit q z u : u <> "" -> whole_part q z ->
    cell_shown (VFloat q) u (VStr (append (py_str (VInt z)) (append " " u))).
Inductive row_shown : list value -> list string -> list value -> Prop :=
| rs_nil us : row_shown [] us []
| rs_cons c u c' row us row' : cell_shown c u c' -> row_shown row us row' -> row_shown (c :: row) (u :: us) (c' :: row').

(** the rows in the order of the texts in the first column; rows with the same
    text stay in their order *)
Definition named (s : string) (row : list value) : Prop := exists rest, row = VStr s :: rest.
Definition has_name (s : string) (row : list value) : bool := match row with VStr t :: _ => String.eqb s t | _ => false end.
Record table_order (rows sorted : list (list value)) : Prop := {
  to_same_rows : Permutation rows sorted;
  to_sorted : StronglySorted (fun r r' => forall s s', named s r -> named s' r' -> ~ comes_before s' s) sorted;
  to_stable : forall s, filter (has_name s) sorted = filter (has_name s) rows
}.

(** *** the model *)
Lemma whole_part_int q : whole_part q (int_of_float q).
Proof.
  unfold int_of_float. destruct q as [a d]. cbn [Qnum Qden]. destruct (Z_le_gt_dec 0 a) as [Ha|Ha].
  - apply whole_positive; unfold Qle, Qlt, inject_Z; cbn [Qnum Qden]; rewrite ?Z.mul_1_r; [lia| |];
      rewrite Z.quot_div_nonneg by lia; pose proof (Z.div_mod a (Zpos d) ltac:(lia)); pose proof (Z.mod_pos_bound a (Zpos d) ltac:(lia)); nia.
  - assert (E : Z.quot a (Zpos d) = (- ((- a) / Zpos d))%Z).
    { rewrite <- (Z.opp_involutive a) at 1. rewrite Z.quot_opp_l by lia. now rewrite Z.quot_div_nonneg by lia. }
    apply whole_negative; unfold Qle, Qlt, inject_Z; cbn [Qnum Qden]; rewrite ?Z.mul_1_r; [lia| |];
      rewrite E; pose proof (Z.div_mod (- a) (Zpos d) ltac:(lia)); pose proof (Z.mod_pos_bound (- a) (Zpos d) ltac:(lia)); nia.
Qed.
Lemma whole_part_unique q z z' : whole_part q z -> whole_part q z' -> z = z'.
Proof.
  assert (L : forall a b, (inject_Z a < inject_Z b)%Q -> (a < b)%Z) by (intros a b H; now rewrite <- Zlt_Qlt in H).
  assert (Z0 : forall a, (inject_Z a <= q)%Q -> (q <= 0)%Q -> (a <= 0)%Z).
  { intros a H1 H2. rewrite Zle_Qle. apply (Qle_trans _ q); assumption. }
  assert (Z1 : forall a, (q <= inject_Z a)%Q -> (0 <= q)%Q -> (0 <= a)%Z).
  { intros a H1 H2. rewrite Zle_Qle. apply (Qle_trans _ q); assumption. }
  intros [P1 A1 B1|P1 A1 B1] [P2 A2 B2|P2 A2 B2].
  - assert (z < z' + 1)%Z by (apply L; eapply Qle_lt_trans; eassumption). assert (z' < z + 1)%Z by (apply L; eapply Qle_lt_trans; eassumption). lia.
  - pose proof (Z0 _ A1 P2). pose proof (Z1 _ A2 P1). assert (0 < z + 1)%Z by (apply L; eapply Qle_lt_trans; eassumption).
    assert (z' - 1 < 0)%Z by (apply L; eapply Qlt_le_trans; eassumption). lia.
  - pose proof (Z0 _ A2 P1). pose proof (Z1 _ A1 P2). assert (0 < z' + 1)%Z by (apply L; eapply Qle_lt_trans; eassumption).
    assert (z - 1 < 0)%Z by (apply L; eapply Qlt_le_trans; eassumption). lia.
  - assert (z - 1 < z')%Z by (apply L; eapply Qlt_le_trans; eassumption). assert (z' - 1 < z)%Z by (apply L; eapply Qlt_le_trans; eassumption). lia.
Qed.

Lemma cell_formatted c u c' : cell_shown c u c' -> format_cell c (VStr u) = Ok c'.
Proof.
  intros [c0 Hc|s u0 Hu|q z Hz|q z u0 Hu Hz]; unfold format_cell.
  - change (py_eq (VStr "") (VStr "")) with true. cbn match. destruct c0; try reflexivity. now destruct (Hc q).
  - apply String.eqb_neq in Hu. cbn [py_eq]. rewrite Hu. reflexivity.
  - rewrite (whole_part_unique q z (int_of_float q) Hz (whole_part_int q)). reflexivity.
  - apply String.eqb_neq in Hu. cbn [py_eq]. rewrite Hu. rewrite (whole_part_unique q z (int_of_float q) Hz (whole_part_int q)). reflexivity.
Qed.
Lemma row_formatted row us row' : row_shown row us row' -> forall pre,
  format_cells (VList (map VStr (pre ++ us))) (length pre) row = Ok row'.
Proof.
  induction 1 as [us|c u c' row us row' Hc Hr IH]; intros pre; [reflexivity|]. cbn [format_cells unit_at].
  assert (E : nth_error (map VStr (pre ++ u :: us)) (length pre) = Some (VStr u)).
  { rewrite nth_error_map, nth_error_app2, Nat.sub_diag by auto. reflexivity. }
  rewrite E. cbn [obind]. rewrite (cell_formatted _ _ _ Hc). cbn [obind].
  specialize (IH (pre ++ [u])). rewrite <- app_assoc in IH. cbn [app] in IH. rewrite app_length in IH. cbn [length] in IH.
  rewrite Nat.add_1_r in IH. rewrite IH. reflexivity.
Qed.

(** sorting by names *)
Fixpoint pins (x : string * list value) (l : list (string * list value)) : list (string * list value) :=
  match l with
  | [] => [x]
  | y :: rest => if str_lt (fst y) (fst x) then y :: pins x rest else x :: l
  end.
Definition keyed (p : string * list value) : value * value := (VStr (fst p), VList (snd p)).
Lemma insert_pins x l : insert_row (VStr (fst x)) (VList (snd x)) (map keyed l) = Ok (map keyed (pins x l)).
Proof.
  induction l as [|y l IH]; [reflexivity|]. cbn [map insert_row pins]. unfold keyed at 1. cbn [fst snd py_lt].
  destruct (str_lt (fst y) (fst x)); [|reflexivity]. rewrite IH. reflexivity.
Qed.
Definition psort (l : list (string * list value)) : list (string * list value) := fold_right pins [] l.
Lemma sort_psort l : sort_rows (map keyed l) = Ok (map keyed (psort l)).
Proof. induction l as [|x l IH]; [reflexivity|]. cbn [map sort_rows fold_right]. unfold sort_rows in IH. rewrite IH. cbn [obind]. apply insert_pins. Qed.
Lemma pins_permutation x l : Permutation (x :: l) (pins x l).
Proof. induction l as [|y l IH]; [reflexivity|]. cbn. destruct (str_lt (fst y) (fst x)); [|reflexivity]. rewrite perm_swap. now constructor. Qed.
Lemma psort_permutation l : Permutation l (psort l).
Proof. induction l as [|x l IH]; [constructor|]. cbn. rewrite <- pins_permutation. now constructor. Qed.
Definition in_order (p q : string * list value) : Prop := str_lt (fst q) (fst p) = false.
Lemma pins_sorted x l : StronglySorted in_order l -> StronglySorted in_order (pins x l).
Proof.
  induction 1 as [|y l S IH F]; [repeat constructor|]. cbn. destruct (str_lt (fst y) (fst x)) eqn:E.
  - constructor; [exact IH|]. rewrite <- pins_permutation. constructor; [|exact F]. unfold in_order.
    destruct (str_lt_cases (fst y) (fst x)) as [(_ & H & _)|[(H & _)|(H & _)]]; congruence.
  - constructor; [now constructor|]. constructor; [exact E|]. rewrite Forall_forall in *. intros z Hz. specialize (F z Hz). unfold in_order in *.
    destruct (str_lt (fst z) (fst x)) eqn:Ez; [|reflexivity].
    destruct (str_lt_cases (fst y) (fst x)) as [(H & _)|[(_ & H & _)|(_ & _ & H)]]; [congruence| |congruence].
    rewrite (str_lt_trans _ _ _ Ez H) in F. discriminate.
Qed.
Lemma psort_sorted l : StronglySorted in_order (psort l).
Proof. induction l as [|x l IH]; [constructor|]. cbn. now apply pins_sorted. Qed.
Lemma pins_stable s x l : filter (fun p => String.eqb s (fst p)) (pins x l) = filter (fun p => String.eqb s (fst p)) (x :: l).
Proof.
  induction l as [|y l IH]; [reflexivity|]. cbn [pins]. destruct (str_lt (fst y) (fst x)) eqn:E; [|reflexivity].
  assert (N : fst y <> fst x) by (intros N; rewrite N in E; destruct (str_lt_cases (fst x) (fst x)) as [(_ & _ & H)|[(_ & _ & H)|(H & _)]]; congruence).
  cbn [filter] in *. rewrite IH. destruct (String.eqb_spec s (fst y)) as [->|]; [|reflexivity].
  apply String.eqb_neq in N. now rewrite N.
Qed.
Lemma psort_stable s l : filter (fun p => String.eqb s (fst p)) (psort l) = filter (fun p => String.eqb s (fst p)) l.
Proof. induction l as [|x l IH]; [reflexivity|]. cbn [psort fold_right]. rewrite pins_stable. cbn [filter]. unfold psort in IH. now rewrite IH. Qed.

(** rows with their names *)
Lemma names_of rows : Forall (fun row => exists s, named s row) rows ->
  exists l, rows = map snd l /\ Forall (fun p => named (fst p) (snd p)) l /\ row_keys (map VList rows) = Ok (map keyed l).
Proof.
  induction 1 as [|row rows (s & rest & ->) _ (l & -> & Hn & E)]; [exists []; repeat split; constructor|].
  exists ((s, VStr s :: rest) :: l). split; [reflexivity|]. split; [constructor; [now exists rest|exact Hn]|].
  cbn [map row_keys row_key cells_of obind snd]. rewrite E. reflexivity.
Qed.
Lemma order_of l : Forall (fun p => named (fst p) (snd p)) l -> table_order (map snd l) (map snd (psort l)).
Proof.
  intros Hn. assert (Hs : Forall (fun p => named (fst p) (snd p)) (psort l)) by (now rewrite <- psort_permutation).
  constructor.
  - apply Permutation_map, psort_permutation.
  - pose proof (psort_sorted l) as S. revert Hs. induction S as [|p ps S IH F]; intros Hs; [constructor|]. inversion Hs as [|? ? Hp Hs']; subst.
    cbn [map]. constructor; [now apply IH|]. apply Forall_forall. intros row Hr. apply in_map_iff in Hr as (p' & <- & Hin).
    rewrite Forall_forall in F, Hs'. specialize (F p' Hin). specialize (Hs' p' Hin).
    intros s s' (t & E) (t' & E') C. destruct Hp as (r & Er), Hs' as (r' & Er'). rewrite Er in E. rewrite Er' in E'. injection E as <- _. injection E' as <- _.
    apply str_lt_compare in C. unfold in_order in F. congruence.
  - intros s. assert (G : forall k, Forall (fun p => named (fst p) (snd p)) k ->
      filter (has_name s) (map snd k) = map snd (filter (fun p => String.eqb s (fst p)) k)).
    { induction 1 as [|p k (r & Hp) _ IH]; [reflexivity|]. cbn [map filter]. rewrite Hp at 1. cbn [has_name]. rewrite IH. now destruct (String.eqb s (fst p)). }
    now rewrite !G, psort_stable.
Qed.

Lemma rows_formatted us rows : Forall (fun row => exists shown, row_shown row us shown) rows ->
  exists shown, Forall2 (fun row row' => row_shown row us row') rows shown /\ format_rows (VList (map VStr us)) (map VList rows) = Ok (map VList shown).
Proof.
  induction 1 as [|row rows (row' & Hr) _ (shown & Hs & E)]; [exists []; split; constructor|]. exists (row' :: shown). split; [now constructor|].
  cbn [map format_rows cells_of]. pose proof (row_formatted _ _ _ Hr []) as F. cbn [app length] in F. rewrite F. cbn [obind]. rewrite E. reflexivity.
Qed.
Lemma table_formatted rows us : Forall (fun row => exists s, named s row) rows -> Forall (fun row => exists shown, row_shown row us shown) rows ->
  exists sorted shown, table_order rows sorted /\ Forall2 (fun row row' => row_shown row us row') sorted shown /\
    table_text [VList (map VList rows); VList (map VStr us)] = Ok (VList (map VList shown)).
Proof.
  intros Hn Hs. destruct (names_of rows Hn) as (l & -> & Hl & Ek).
  assert (Hp : Forall (fun row => exists shown, row_shown row us shown) (map snd (psort l))) by (now rewrite <- psort_permutation).
  destruct (rows_formatted us _ Hp) as (shown & Hf & Er). exists (map snd (psort l)), shown. split; [now apply order_of|]. split; [exact Hf|].
  unfold table_text. cbn [cells_of]. rewrite Ek. cbn [obind]. rewrite sort_psort. cbn [obind].
  assert (E : map snd (map keyed (psort l)) = map VList (map snd (psort l))) by (rewrite !map_map; reflexivity). rewrite E, Er. reflexivity.
Qed.

(** a cell that has a unit and is not a text or a number with a fraction *)
Lemma cell_refused c u : u <> "" -> (forall s, c <> VStr s) -> (forall q, c <> VFloat q) -> (forall l, c <> VList l) -> format_cell c (VStr u) = Exn TypeErr.
Proof.
  intros Hu H1 H2 H3. apply String.eqb_neq in Hu. unfold format_cell. cbn [py_eq]. rewrite Hu.
  destruct c as [|b|z|q|s|x|x|l|l|z]; try reflexivity; exfalso; [eapply H2|eapply H1|eapply H3]; reflexivity.
Qed.

(** a list of texts *)
Lemma sort_texts_permutation ss : Permutation ss (sort_texts ss).
Proof.
  assert (Hp : forall s l, Permutation (s :: l) (insert_text s l)).
  { intros s. induction l as [|t l IH]; [reflexivity|]. cbn. destruct (str_lt t s); [|reflexivity]. rewrite perm_swap. now constructor. }
  induction ss as [|s ss IH]; [constructor|]. cbn. rewrite <- Hp. now constructor.
Qed.

(** ** C106 *)
Section C106.
  Context {V : Type}.
  Variables (LR : lens V rulebase) (tables : V -> string -> option (list (list value))) (LB : lens V sds_store)
            (arity : string -> nat) (rules : list folrule) (v : V).
  Hypothesis H : talking_program LR tables LB arity rules v.
  Notation mods := (talk_mods LR tables LB).
  Definition reply_of (w : V) (k : nat) : outcome value * V :=
    generate_output (grammar_rules (write_rules format_table)) (solve mods (S k)) LB (S k) w.

  (** With a unit: the first value that is found is told, then the unit; and
      when none is found nothing is left to be told. *)
  Theorem C106_a_value_with_its_unit :
    forall n x u qs rs kept,
      solve mods (S n) (VList qs) [("Variable", VStr x); ("Unit", VStr u); ("Sem", VList qs)] v = (Ok (SList rs), v) ->
      first_values [] (values_of x rs) kept ->
      let act := solve mods (S (S (S n))) (intent "intent_value_with_unit" [VStr x; VStr u; VList qs]) [] v in
      (kept = [] -> act = (Ok (SList []), v)) /\
      (forall c more, kept = c :: more -> c <> VNone -> exists w, act = (Ok (SList [[]]), w) /\
         forall k, reply_of w k = (Ok (VStr (append (py_str c) (append " " u))), v)).
  Proof.
    destruct H as [H1 H2 H3 H4 H5 H6 H7 H8 H9]. intros n x u qs rs kept E Hk act.
    destruct (do_unit LR tables LB v arity rules H1 H2 H3 H4 H5 H7 H8 H9 n x u qs rs kept E Hk) as (A & B).
    split; [exact A|]. intros c more Ek Hc. eexists. split; [exact (B c more Ek Hc)|]. intros k.
    apply (read_unit LR tables LB v rules H1 H2 H3 H4 H5 H9). exact Hc.
  Qed.

  (** A table: all combinations that are found, once each, in the order of the
      texts in the first column, with the units. *)
  Theorem C106_tables :
    forall n xs us qs rs rows,
      solve mods (S n) (VList qs) [("Variables", VList (map VStr xs)); ("Units", VList (map VStr us)); ("Body", VList qs)] v = (Ok (SList rs), v) ->
      first_values [] (map (fun r => VList (map (fun x => match bget x r with Some c => c | None => VNone end) xs)) rs) (map VList rows) ->
      Forall (fun row => exists s, named s row) rows -> Forall (fun row => exists shown, row_shown row us shown) rows ->
      exists w, solve mods (S (S (S n))) (intent "intent_table" [VList (map VStr xs); VList (map VStr us); VList qs]) [] v = (Ok (SList [[]]), w) /\
      exists sorted shown, table_order rows sorted /\ Forall2 (fun row row' => row_shown row us row') sorted shown /\
        forall k, reply_of w k = (Ok (VList (map VList shown)), v).
  Proof.
    destruct H as [H1 H2 H3 H4 H5 H6 H7 H8 H9]. intros n xs us qs rs rows E Hk Hn Hs. eexists.
    split; [exact (do_table LR tables LB v arity rules H1 H2 H3 H4 H5 H7 H8 H9 n xs us qs rs (map VList rows) E Hk)|].
    destruct (table_formatted rows us Hn Hs) as (sorted & shown & Ho & Hf & Et). exists sorted, shown. split; [exact Ho|]. split; [exact Hf|]. intros k.
    unfold reply_of. rewrite (read_table LR tables LB v rules H1 H2 H3 H4 H9) by discriminate. unfold format_table. rewrite Et. cbn [ret].
    now rewrite (buffer_cleared LB v H1 H5).
  Qed.

  (** The end of a conversation. *)
  Theorem C106_goodbye :
    forall n, exists w, solve mods (S (S (S n))) (intent "intent_close_conversation" []) [] v = (Ok (SList [[]]), w) /\
      forall k, reply_of w k = (Ok (VStr "Cheerio."), v).
  Proof.
    destruct H as [H1 H2 H3 H4 H5 H6 H7 H8 H9]. intros n. eexists.
    split; [exact (do_close LR tables LB v arity rules H1 H2 H3 H4 H5 H7 H8 H9 n)|]. intros k.
    apply (read_fixed LR tables LB v rules H1 H2 H3 H4 H5 H9). cbn. auto.
  Qed.

  (** Lists: texts are told in alphabetical order; anything else in a list is
      a TypeError, after which the list stays in the output buffer. *)
  Theorem C106_lists :
    forall n x qs rs kept,
      solve mods (S n) (VList qs) [("E1", VStr x); ("Sem", VList qs)] v = (Ok (SList rs), v) ->
      first_values [] (values_of x rs) kept ->
      exists w, solve mods (S (S (S n))) (intent "intent_list" [VStr x; VList qs]) [] v = (Ok (SList [[]]), w) /\
        (forall ss, kept = map VStr ss -> exists sorted, Permutation ss sorted /\ StronglySorted comes_before sorted /\
           forall k, reply_of w k = (Ok (VStr (String.concat ", " sorted)), v)) /\
        (Exists (fun c => forall s, c <> VStr s) kept -> forall k, reply_of w k = (Exn TypeErr, w)).
  Proof.
    destruct H as [H1 H2 H3 H4 H5 H6 H7 H8 H9]. intros n x qs rs kept E Hk. eexists.
    split; [exact (do_list_of LR tables LB v arity rules H1 H2 H3 H4 H5 H7 H8 H9 n x qs rs kept E Hk)|]. split.
    - intros ss ->. exists (sort_texts ss). split; [apply sort_texts_permutation|]. split.
      + apply sort_texts_sorted. destruct (first_values_distinct _ _ _ Hk) as (D & _). clear -D.
        induction ss as [|s ss IH]; [constructor|]. inversion D as [|? ? Hs D']; subst. constructor; [|apply IH; exact D'].
        intros Hin. rewrite Forall_forall in Hs. specialize (Hs (VStr s) (in_map VStr _ _ Hin)). cbn in Hs. rewrite String.eqb_refl in Hs. discriminate.
      + intros k. apply (read_list LR tables LB v rules H1 H2 H3 H4 H5 H9).
    - intros Hx k. apply (read_bad_list LR tables LB v rules H1 H2 H3 H4 H9). clear -Hx.
      induction Hx as [c l Hc|c l _ IH]; cbn [all_text]; [|rewrite IH; now destruct (as_text c)].
      destruct c; try reflexivity. now destruct (Hc s).
  Qed.
End C106.
Print Assumptions C106_a_value_with_its_unit.
Print Assumptions C106_tables.
Print Assumptions C106_goodbye.
Print Assumptions C106_lists.

(** ** the hypotheses are met *)
Local Notation S_ := VStr.
Notation atlas_mods := (talk_mods chat_rules chat_tables chat_buffer).
Definition share_of_seas : list value :=
  [VTuple [S_ "country"; VVar "E2"];
   VTuple [S_ "percentage"; VVar "E1"; VList [VTuple [S_ "sea"; VVar "E3"]; VTuple [S_ "borders"; VVar "E2"; VVar "E3"]]; VList [VTuple [S_ "sea"; VVar "E3"]]]].
Definition number_of_neighbours : list value :=
  [VTuple [S_ "country"; VVar "E2"]; VTuple [S_ "count"; VVar "E1"; VList [VTuple [S_ "borders"; VVar "E2"; VVar "E3"]]]].
Definition after_intent (name : string) (args : list value) (w : chat) : chat := snd (solve atlas_mods 30 (intent name args) [] w).

Example C106_hypotheses : talking_program chat_rules chat_tables chat_buffer atlas_arity [landlocked_rule] chat_atlas.
Proof. exact chat_program. Qed.
Definition told (w : chat) : outcome value := fst (reply_of chat_rules chat_tables chat_buffer w 30).
Example C106_table_example :
  told (after_intent "intent_table" [VList [S_ "E2"; S_ "E1"]; VList [S_ ""; S_ "percent"]; VList share_of_seas] chat_atlas)
    = Ok (VList [VList [S_ "ant"; S_ "0 percent"]; VList [S_ "bor"; S_ "100 percent"]; VList [S_ "cal"; S_ "50 percent"]; VList [S_ "dur"; S_ "50 percent"]]) /\
  told (after_intent "intent_table" [VList [S_ "E2"; S_ "E1"]; VList [S_ ""; S_ ""]; VList number_of_neighbours] chat_atlas)
    = Ok (VList [VList [S_ "ant"; VInt 2]; VList [S_ "bor"; VInt 4]; VList [S_ "cal"; VInt 2]; VList [S_ "dur"; VInt 2]]).
Proof. split; vm_compute; reflexivity. Qed.
Example C106_value_example :
  told (after_intent "intent_value_with_unit" [S_ "E1"; S_ "neighbours"; VList number_of_neighbours] chat_atlas) = Ok (S_ "2 neighbours").
Proof. vm_compute. reflexivity. Qed.
Example C106_list_example :
  told (after_intent "intent_list" [S_ "E2"; VList number_of_neighbours] chat_atlas) = Ok (S_ "ant, bor, cal, dur").
Proof. vm_compute. reflexivity. Qed.
Example C106_cells_example :
  cell_shown (VFloat (7 # 2)) "" (S_ "3") /\ cell_shown (VFloat (-7 # 2)) "ksqmiles" (S_ "-3 ksqmiles") /\ cell_shown (VInt 4) "" (VInt 4).
Proof.
  split; [apply (shown_number (7 # 2) 3); apply (whole_part_int (7 # 2))|].
  split; [apply (shown_number_with_unit (-7 # 2) (-3)); [discriminate|apply (whole_part_int (-7 # 2))]|]. now apply shown_plain.
Qed.

(** ** a deviation: whole numbers with a unit *)

(** A column of whole numbers that has a unit is not told: formatting raises
    a TypeError, and the table stays in the output buffer. *)
Theorem C106_whole_numbers_with_units_refuted :
  (forall {V} (LR : lens V rulebase) tables LB arity rules v, talking_program LR tables LB arity rules v ->
    forall n xs u qs rs rows, u <> "" -> rows <> [] ->
      solve (talk_mods LR tables LB) (S n) (VList qs) [("Variables", VList (map VStr xs)); ("Units", VList (map VStr [""; u])); ("Body", VList qs)] v = (Ok (SList rs), v) ->
      first_values [] (map (fun r => VList (map (fun x => match bget x r with Some c => c | None => VNone end) xs)) rs)
        (map (fun p => VList [VStr (fst p); VInt (snd p)]) rows) ->
      exists w, solve (talk_mods LR tables LB) (S (S (S n))) (intent "intent_table" [VList (map VStr xs); VList (map VStr [""; u]); VList qs]) [] v = (Ok (SList [[]]), w) /\
        forall k, reply_of LR tables LB w k = (Exn TypeErr, w)) /\
  (** and the next reply, to another sentence, fails as well *)
  let w := after_intent "intent_table" [VList [S_ "E2"; S_ "E1"]; VList [S_ ""; S_ "neighbours"]; VList number_of_neighbours] chat_atlas in
  told w = Exn TypeErr /\
  told (after_intent "intent_close_conversation" [] (snd (reply_of chat_rules chat_tables chat_buffer w 30))) = Exn TypeErr.
Proof.
  split; [|split; vm_compute; reflexivity].
  intros V LR tables LB arity rules v [H1 H2 H3 H4 H5 H6 H7 H8 H9] n xs u qs rs rows Hu Hr E Hk. eexists.
  split; [exact (do_table LR tables LB v arity rules H1 H2 H3 H4 H5 H7 H8 H9 n xs [""; u] qs rs _ E Hk)|]. intros k.
  unfold reply_of. rewrite (read_table LR tables LB v rules H1 H2 H3 H4 H9) by discriminate. unfold format_table.
  assert (Et : table_text [VList (map (fun p => VList [VStr (fst p); VInt (snd p)]) rows); VList (map VStr [""; u])] = Exn TypeErr).
  { set (trows := map (fun p : string * Z => [VStr (fst p); VInt (snd p)]) rows).
    assert (Em : map (fun p : string * Z => VList [VStr (fst p); VInt (snd p)]) rows = map VList trows) by (unfold trows; now rewrite map_map).
    rewrite Em. destruct (names_of trows) as (l & El & Hl & Ek).
    { apply Forall_forall. intros row Hin. apply in_map_iff in Hin as (p & <- & _). exists (fst p), [VInt (snd p)]. reflexivity. }
    unfold table_text. cbn [cells_of]. rewrite Ek. cbn [obind]. rewrite sort_psort. cbn [obind].
    assert (Es : map snd (map keyed (psort l)) = map VList (map snd (psort l))) by (rewrite !map_map; reflexivity). rewrite Es.
    assert (Hp : Permutation trows (map snd (psort l))) by (rewrite El; apply Permutation_map, psort_permutation).
    destruct (map snd (psort l)) as [|row more] eqn:Er.
    - apply Permutation_sym, Permutation_nil in Hp. destruct rows; [now destruct Hr|discriminate].
    - assert (Hin : In row trows) by (apply (Permutation_in row (Permutation_sym Hp)); now left).
      apply in_map_iff in Hin as (p & <- & _). cbn [map format_rows cells_of format_cells unit_at nth_error obind].
      rewrite (cell_formatted (VStr (fst p)) "" _ (shown_plain (VStr (fst p)) ltac:(discriminate))). cbn [obind].
      rewrite cell_refused by (first [exact Hu|discriminate]). reflexivity. }
  rewrite Et. reflexivity.
Qed.
Print Assumptions C106_whole_numbers_with_units_refuted.
