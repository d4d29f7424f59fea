(** * The statements of the Sqlite data source mean what they should *)

From Coq Require Import ZArith String Ascii List Bool Lia Arith.
From Verif Require Import Py PyFacts Effects EffectsFacts InferenceModule Sql SqliteDataSource DataSpec SimpleDataProofs.
Import ListNotations.
Local Open Scope string_scope.
Local Open Scope list_scope.

Notation "a ^^ b" := (String.append a b) (right associativity, at level 60).

Lemma sapp_assoc (a b c : string) : (a ^^ b) ^^ c = a ^^ (b ^^ c).
Proof. induction a; simpl; auto. now rewrite IHa. Qed.
Lemma sapp_nil (a : string) : a ^^ "" = a.
Proof. induction a; simpl; auto. now rewrite IHa. Qed.

(** ** lexing *)

Lemma lex_word w : forall r cur, all_word w = true -> lex (w ^^ r) cur = lex r (cur ^^ w).
Proof.
  induction w as [|c w IH]; intros r cur; simpl; [now rewrite sapp_nil|].
  intros H. apply andb_true_iff in H as [Hc Hw]. rewrite Hc, IH by auto. f_equal.
  rewrite sapp_assoc. reflexivity.
Qed.
Lemma lex_symbol c t r cur l : word_char c = false -> symbol c = Some t -> lex r "" = Some l ->
  lex (String c r) cur = Some (flush cur (t ++ l)).
Proof. intros H1 H2 H3. simpl. now rewrite H1, H2, H3. Qed.

Lemma name_word s : sql_name s = true -> all_word s = true.
Proof. destruct s; simpl; [discriminate|]. intros H. apply andb_true_iff in H as [H _]. now apply andb_true_iff in H. Qed.
Lemma name_flush s l : sql_name s = true -> flush s l = TWord s :: l.
Proof. now destruct s. Qed.

Lemma lex_sp r cur : lex (String " " r) cur = option_map (flush cur) (lex r "").
Proof. simpl. now destruct (lex r ""). Qed.
Lemma lex_comma r cur : lex (String "," r) cur = option_map (fun l => flush cur (TComma :: l)) (lex r "").
Proof. simpl. now destruct (lex r ""). Qed.
Lemma lex_open r cur : lex (String "(" r) cur = option_map (fun l => flush cur (TOpen :: l)) (lex r "").
Proof. simpl. now destruct (lex r ""). Qed.
Lemma lex_close r cur : lex (String ")" r) cur = option_map (fun l => flush cur (TClose :: l)) (lex r "").
Proof. simpl. now destruct (lex r ""). Qed.
Lemma lex_eq r cur : lex (String "=" r) cur = option_map (fun l => flush cur (TEq :: l)) (lex r "").
Proof. simpl. now destruct (lex r ""). Qed.
Lemma lex_mark r cur : lex (String "?" r) cur = option_map (fun l => flush cur (TMark :: l)) (lex r "").
Proof. simpl. now destruct (lex r ""). Qed.

(** a word followed by a symbol *)
Lemma lex_word_symbol w c t r l : all_word w = true -> word_char c = false -> symbol c = Some t ->
  lex r "" = Some l -> lex (w ^^ String c r) "" = Some (flush w (t ++ l)).
Proof. intros Hw H1 H2 H3. rewrite lex_word by auto. simpl String.append. now apply lex_symbol. Qed.

Fixpoint names_tokens (cols : list string) : list token :=
  match cols with
  | [] => []
  | [c] => [TWord c]
  | c :: cols' => TWord c :: TComma :: names_tokens cols'
  end.
Definition names (cols : list string) : Prop := forall c, In c cols -> sql_name c = true.

Lemma join_cons2 sep a b l : join sep (a :: b :: l) = a ^^ sep ^^ join sep (b :: l).
Proof. reflexivity. Qed.

Lemma lex_names cols c t r l : names cols -> word_char c = false -> symbol c = Some t -> lex r "" = Some l ->
  lex (join "," cols ^^ String c r) "" = Some (names_tokens cols ++ t ++ l).
Proof.
  intros Hn H1 H2 H3. induction cols as [|a cols IH].
  - simpl String.append. rewrite (lex_symbol c t r "" l) by auto. reflexivity.
  - destruct cols as [|b cols].
    + simpl join. rewrite (lex_word_symbol a c t r l); auto.
      * rewrite name_flush; [reflexivity|apply Hn; now left].
      * apply name_word, Hn. now left.
    + rewrite join_cons2, !sapp_assoc. change ("," ^^ join "," (b :: cols) ^^ String c r)
        with (String "," (join "," (b :: cols) ^^ String c r)).
      rewrite (lex_word_symbol a "," [TComma] _ (names_tokens (b :: cols) ++ t ++ l)); auto.
      * rewrite name_flush; [reflexivity|apply Hn; now left].
      * apply name_word, Hn. now left.
      * apply IH. intros x Hx. apply Hn. now right.
Qed.

(** ** the where clause *)
Fixpoint and_text (cols : list string) : string :=
  match cols with [] => "" | c :: cols' => " AND " ^^ c ^^ "=?" ^^ and_text cols' end.
Definition bound_cols (columns : list string) (values : list value) : list string := map fst (pattern columns values).
Definition bound_vals (columns : list string) (values : list value) : list value := map snd (pattern columns values).

Lemma where_loop_spec columns : forall values w vs,
  where_loop "?" w vs columns values = (w ^^ and_text (bound_cols columns values), vs ++ bound_vals columns values).
Proof.
  induction columns as [|c columns IH]; intros [|v values] w vs; simpl; rewrite ?sapp_nil, ?app_nil_r; auto.
  unfold bound_cols, bound_vals in *. simpl. destruct (is_none v); [apply IH|]. rewrite IH. simpl.
  rewrite <- app_assoc. rewrite !sapp_assoc. simpl. rewrite !sapp_assoc. reflexivity.
Qed.
Lemma select_params_spec columns values : select_params columns values = bound_vals columns values.
Proof.
  unfold select_params. enough (H : forall m w vs, snd (where_loop m w vs columns values) = vs ++ bound_vals columns values)
    by (now rewrite H).
  unfold bound_vals. revert values. induction columns as [|c columns IH]; intros [|v values] m w vs; simpl; rewrite ?app_nil_r; auto.
  destruct (is_none v); [apply IH|]. rewrite IH. now rewrite <- app_assoc.
Qed.

Definition and_tokens (cols : list string) : list token :=
  flat_map (fun c => [TWord "AND"; TWord c; TEq; TMark]) cols.

Lemma lex_and cols : forall cur, names cols -> lex (and_text cols) cur = Some (flush cur (and_tokens cols)).
Proof.
  induction cols as [|c cols IH]; intros cur Hn; [reflexivity|]. cbn [and_text and_tokens flat_map].
  change (" AND " ^^ c ^^ "=?" ^^ and_text cols) with
    (String " " ("AND" ^^ String " " (c ^^ String "=" (String "?" (and_text cols))))).
  assert (Hc : sql_name c = true) by (apply Hn; now left).
  assert (Hn' : names cols) by (intros x Hx; apply Hn; now right).
  rewrite lex_sp, lex_word, lex_sp, lex_word, lex_eq, lex_mark, IH by auto using name_word.
  cbn [option_map]. change ("" ^^ c) with c. rewrite (name_flush c) by auto. reflexivity.
Qed.

Lemma bound_cols_incl columns values : incl (bound_cols columns values) columns.
Proof.
  unfold bound_cols. revert values. induction columns as [|c columns IH]; intros [|v values] x; simpl; try tauto.
  destruct (is_none v); simpl; intros H; [right; eapply IH; eauto|]. destruct H; [now left|right; eapply IH; eauto].
Qed.

Lemma lex_select t columns values : sql_name t = true -> names columns ->
  lex (select_text "?" t columns values) ""
  = Some (TWord "SELECT" :: names_tokens columns ++ [TWord "FROM"; TWord t; TWord "WHERE"; TWord "TRUE"]
          ++ and_tokens (bound_cols columns values)).
Proof.
  intros Ht Hn. unfold select_text. rewrite where_loop_spec. cbn [fst].
  change ("SELECT " ^^ join "," columns ^^ " FROM " ^^ t ^^ " WHERE " ^^ "TRUE" ^^ and_text (bound_cols columns values))
    with ("SELECT" ^^ String " " (join "," columns ^^ String " " ("FROM" ^^ String " " (t ^^ String " " ("WHERE" ^^ String " "
      ("TRUE" ^^ and_text (bound_cols columns values))))))).
  assert (Hb : names (bound_cols columns values)) by (intros c Hc; apply Hn; eapply bound_cols_incl; eauto).
  assert (E : lex ("FROM" ^^ String " " (t ^^ String " " ("WHERE" ^^ String " "
      ("TRUE" ^^ and_text (bound_cols columns values))))) ""
    = Some ([TWord "FROM"; TWord t; TWord "WHERE"; TWord "TRUE"] ++ and_tokens (bound_cols columns values))).
  { rewrite lex_word, lex_sp, lex_word, lex_sp, lex_word, lex_sp, lex_word, lex_and by auto using name_word.
    cbn [option_map]. change ("" ^^ t) with t. rewrite (name_flush t) by auto. reflexivity. }
  rewrite lex_word, lex_sp by reflexivity. rewrite (lex_names columns " " [] _ _ Hn eq_refl eq_refl E). reflexivity.
Qed.

(** ** parsing *)
Lemma p_names_spec cols rest : cols <> [] -> names cols -> (forall r, rest <> TComma :: r) ->
  forall fuel, length cols <= fuel -> p_names fuel (names_tokens cols ++ rest) = Some (cols, rest).
Proof.
  intros H0 Hn Hr. induction cols as [|c cols IH]; [congruence|]. intros fuel Hf. destruct fuel; [simpl in Hf; lia|].
  assert (Hc : sql_name c = true) by (apply Hn; now left).
  destruct cols as [|c2 cols].
  - cbn [names_tokens app p_names]. unfold p_name. rewrite Hc. destruct rest as [|[] rest]; auto. exfalso; eapply Hr; eauto.
  - change (names_tokens (c :: c2 :: cols) ++ rest) with (TWord c :: TComma :: (names_tokens (c2 :: cols) ++ rest)).
    cbn [p_names]. unfold p_name at 1. rewrite Hc. rewrite IH; auto; try discriminate; [intros x Hx; apply Hn; now right|].
    simpl in *. lia.
Qed.

Lemma name_not_kw c k : sql_name c = true -> In k reserved -> String.eqb (upper c) k = false.
Proof.
  intros Hc Hk. destruct c; [discriminate|]. unfold sql_name in Hc. apply andb_true_iff in Hc as [_ Hc].
  apply negb_true_iff in Hc. unfold is_reserved in Hc.
  destruct (String.eqb (upper (String a c)) k) eqn:E; auto.
  assert (existsb (String.eqb (upper (String a c))) reserved = true); [|congruence].
  apply existsb_exists. eauto.
Qed.

(** after TRUE *)
Lemma p_conds_and cols : names cols -> forall fuel, length cols < fuel ->
  p_conds fuel (TWord "TRUE" :: and_tokens cols) = Some cols.
Proof.
  intros Hn. enough (H : forall fuel, length cols <= fuel -> cols <> [] ->
    p_conds fuel (tl (and_tokens cols)) = Some cols).
  { intros fuel Hf. destruct fuel; [lia|]. cbn [p_conds]. unfold p_cond at 1. cbn [p_kw].
    change (String.eqb (upper "TRUE") "TRUE") with true. cbn iota.
    destruct cols as [|c cols]; [reflexivity|]. cbn [and_tokens flat_map app p_kw].
    change (String.eqb (upper "AND") "AND") with true. cbn iota.
    change (TWord c :: TEq :: TMark :: flat_map (fun c0 => [TWord "AND"; TWord c0; TEq; TMark]) cols) with
      (tl (and_tokens (c :: cols))). rewrite H; [reflexivity|simpl in *; lia|discriminate]. }
  induction cols as [|c cols IH]; [congruence|]. intros fuel Hf _. destruct fuel; [simpl in Hf; lia|].
  assert (Hc : sql_name c = true) by (apply Hn; now left).
  cbn [and_tokens flat_map app tl p_conds]. unfold p_cond. cbn [p_kw].
  rewrite (name_not_kw c "TRUE" Hc) by (simpl; auto). unfold p_name. rewrite Hc.
  destruct cols as [|c2 cols]; [reflexivity|].
  cbn [flat_map app p_kw]. change (String.eqb (upper "AND") "AND") with true. cbn iota.
  change (TWord c2 :: TEq :: TMark :: flat_map (fun c0 => [TWord "AND"; TWord c0; TEq; TMark]) cols) with
    (tl (and_tokens (c2 :: cols))). rewrite IH; [reflexivity| | |discriminate].
  - intros x Hx. apply Hn. now right.
  - simpl in *. lia.
Qed.

Lemma p_names_none rest : (forall w r, rest = TWord w :: r -> sql_name w = false) -> forall fuel, p_names fuel rest = None.
Proof. intros H [|f]; auto. simpl. unfold p_name. destruct rest as [|[] ?]; auto. erewrite H; eauto. Qed.

Lemma and_tokens_length cols : length cols <= length (and_tokens cols).
Proof. induction cols; simpl in *; lia. Qed.
Lemma names_tokens_length cols : length cols <= length (names_tokens cols).
Proof. induction cols as [|c [|c2 cols] IH]; simpl in *; lia. Qed.

Lemma parse_select t columns values : sql_name t = true -> names columns -> columns <> [] ->
  parse_sql (select_text "?" t columns values) = Some (SSelect columns t (bound_cols columns values)).
Proof.
  intros Ht Hn H0. unfold parse_sql. rewrite lex_select by auto. unfold p_select. cbn [p_kw].
  change (String.eqb (upper "SELECT") "SELECT") with true. cbn iota.
  rewrite p_names_spec; auto; [|discriminate|].
  2:{ rewrite app_length. pose proof (names_tokens_length columns). lia. }
  cbn [app p_kw]. change (String.eqb (upper "FROM") "FROM") with true. cbn iota.
  unfold p_name. rewrite Ht. cbn [p_kw]. change (String.eqb (upper "WHERE") "WHERE") with true. cbn iota.
  rewrite p_conds_and; [reflexivity| |].
  - intros c Hc. apply Hn. eapply bound_cols_incl; eauto.
  - simpl. pose proof (and_tokens_length (bound_cols columns values)). lia.
Qed.

(** insert *)
Fixpoint marks_tokens (n : nat) : list token :=
  match n with O => [] | S O => [TMark] | S n' => TMark :: TComma :: marks_tokens n' end.
Lemma lex_marks (values : list value) : values <> [] ->
  lex (join ", " (map (fun _ => "?") values) ^^ ")") "" = Some (marks_tokens (length values) ++ [TClose]).
Proof.
  induction values as [|v values IH]; [congruence|]. intros _. destruct values as [|v2 values]; [reflexivity|].
  cbn [map]. rewrite join_cons2, !sapp_assoc.
  change ("?" ^^ ", " ^^ join ", " ("?" :: map (fun _ => "?") values) ^^ ")") with
    (String "?" (String "," (String " " (join ", " (map (fun _ => "?") (v2 :: values)) ^^ ")")))).
  rewrite lex_mark, lex_comma, lex_sp, IH by discriminate. reflexivity.
Qed.
Lemma p_marks_spec n rest : (forall r, rest <> TComma :: r) -> p_marks (marks_tokens (S n) ++ rest) = Some (S n, rest).
Proof.
  intros Hr. induction n as [|n IH].
  - simpl. destruct rest as [|[] ?]; auto. exfalso. eapply Hr; eauto.
  - change (marks_tokens (S (S n)) ++ rest) with (TMark :: TComma :: (marks_tokens (S n) ++ rest)).
    cbn [p_marks]. now rewrite IH.
Qed.

Ltac kw k := cbn [p_kw]; change (String.eqb (upper k) k) with true; cbn iota.

Lemma lex_insert t columns (values : list value) : sql_name t = true -> names columns -> values <> [] ->
  lex (insert_text t columns values) "" = Some ([TWord "INSERT"; TWord "OR"; TWord "IGNORE"; TWord "INTO"; TWord t; TOpen]
     ++ names_tokens columns ++ [TClose; TWord "VALUES"; TOpen] ++ marks_tokens (length values) ++ [TClose]).
Proof.
  intros Ht Hn Hv. unfold insert_text.
    change ("INSERT OR IGNORE INTO " ^^ t ^^ " (" ^^ join "," columns ^^ ") VALUES (" ^^ join ", " (map (fun _ => "?") values) ^^ ")")
    with ("INSERT" ^^ String " " ("OR" ^^ String " " ("IGNORE" ^^ String " " ("INTO" ^^ String " " (t ^^ String " " (String "("
      (join "," columns ^^ String ")" (String " " ("VALUES" ^^ String " " (String "(" (join ", " (map (fun _ => "?") values) ^^ ")"))))))))))).
    assert (E : lex (String " " ("VALUES" ^^ String " " (String "(" (join ", " (map (fun _ => "?") values) ^^ ")")))) ""
      = Some ([TWord "VALUES"; TOpen] ++ marks_tokens (length values) ++ [TClose])).
    { rewrite lex_sp, lex_word, lex_sp, lex_open, lex_marks by auto. reflexivity. }
    rewrite lex_word, lex_sp, lex_word, lex_sp, lex_word, lex_sp, lex_word, lex_sp, lex_word, lex_sp, lex_open by auto using name_word.
    rewrite (lex_names columns ")" [TClose] _ _ Hn eq_refl eq_refl E).
    cbn [option_map]. change ("" ^^ t) with t. rewrite (name_flush t) by auto. reflexivity.
Qed.
Lemma parse_insert t columns (values : list value) : sql_name t = true -> names columns -> columns <> [] -> values <> [] ->
  parse_sql (insert_text t columns values) = Some (SInsert t columns (length values)).
Proof.
  intros Ht Hn H0 Hv. unfold parse_sql.
  rewrite (lex_insert t columns values Ht Hn Hv).
  assert (Es : forall l, p_select (TWord "INSERT" :: l) = None) by reflexivity.
  cbn [app]. rewrite Es. unfold p_insert. cbn [p_kw].
  kw "INSERT".
  kw "OR".
  kw "IGNORE".
  kw "INTO".
  unfold p_name. rewrite Ht. cbn [p_token]. rewrite p_names_spec; auto; [|discriminate|].
  2:{ rewrite app_length. pose proof (names_tokens_length columns). lia. }
  cbn [p_token p_kw]. kw "VALUES". cbn [p_token].
  destruct values as [|v values]; [congruence|]. cbn [length]. rewrite p_marks_spec by discriminate. reflexivity.
Qed.

(** delete *)
Fixpoint del_text (cols : list string) : string :=
  match cols with [] => "" | [c] => c ^^ " = ? " | c :: cols' => c ^^ " = ? AND " ^^ del_text cols' end.
Lemma del_text_join cols : join "AND " (map (fun c => c ^^ " = ? ") cols) = del_text cols.
Proof.
  induction cols as [|c cols IH]; auto. destruct cols as [|c2 cols]; auto.
  cbn [map] in *. rewrite join_cons2. rewrite IH. rewrite !sapp_assoc. reflexivity.
Qed.
Lemma lex_del cols : names cols -> lex (del_text cols) "" = Some (tl (and_tokens cols)).
Proof.
  induction cols as [|c cols IH]; intros Hn; [reflexivity|].
  assert (Hc : sql_name c = true) by (apply Hn; now left).
  destruct cols as [|c2 cols].
  - change (del_text [c]) with (c ^^ String " " "= ? ").
    rewrite lex_word, lex_sp by auto using name_word. change (lex "= ? " "") with (Some [TEq; TMark]). cbn [option_map]. change ("" ^^ c) with c. rewrite (name_flush c) by auto. reflexivity.
  - change (del_text (c :: c2 :: cols)) with (c ^^ String " " (String "=" (String " " (String "?" (String " " ("AND" ^^ String " " (del_text (c2 :: cols)))))))).
    rewrite lex_word, lex_sp, lex_eq, lex_sp, lex_mark, lex_sp, lex_word, lex_sp, IH; auto using name_word.
    + cbn [option_map]. change ("" ^^ c) with c. rewrite (name_flush c) by auto. reflexivity.
    + intros x Hx. apply Hn. now right.
Qed.
Lemma p_conds_del cols : names cols -> cols <> [] -> forall fuel, length cols <= fuel -> p_conds fuel (tl (and_tokens cols)) = Some cols.
Proof.
  intros Hn H0 fuel Hf. pose proof (p_conds_and cols Hn (S fuel) ltac:(lia)) as H. cbn [p_conds] in H.
  unfold p_cond in H at 1. cbn [p_kw] in H. change (String.eqb (upper "TRUE") "TRUE") with true in H. cbn iota in H.
  destruct cols as [|c cols]; [congruence|]. cbn [and_tokens flat_map app p_kw] in H.
  change (String.eqb (upper "AND") "AND") with true in H. cbn iota in H.
  cbn [and_tokens flat_map app tl]. destruct (p_conds fuel _); [|discriminate]. injection H as <-. reflexivity.
Qed.
Lemma lex_delete t columns : sql_name t = true -> names columns ->
  lex (delete_text t columns) "" = Some ([TWord "DELETE"; TWord "FROM"; TWord t; TWord "WHERE"] ++ tl (and_tokens columns)).
Proof.
  intros Ht Hn. unfold delete_text. rewrite del_text_join.
    change ("DELETE FROM " ^^ t ^^ " WHERE " ^^ del_text columns) with
     ("DELETE" ^^ String " " ("FROM" ^^ String " " (t ^^ String " " ("WHERE" ^^ String " " (del_text columns))))).
    rewrite lex_word, lex_sp, lex_word, lex_sp, lex_word, lex_sp, lex_word, lex_sp, lex_del by auto using name_word.
    cbn [option_map]. change ("" ^^ t) with t. rewrite (name_flush t) by auto. reflexivity.
Qed.
Lemma parse_delete t columns : sql_name t = true -> names columns -> columns <> [] ->
  parse_sql (delete_text t columns) = Some (SDelete t columns).
Proof.
  intros Ht Hn H0. unfold parse_sql.
  rewrite (lex_delete t columns Ht Hn). cbn [app].
  assert (Es : forall l, p_select (TWord "DELETE" :: l) = None) by reflexivity.
  assert (Ei : forall l, p_insert (TWord "DELETE" :: l) = None) by reflexivity.
  rewrite Es, Ei. unfold p_delete. cbn [p_kw].
  kw "DELETE".
  kw "FROM". unfold p_name. rewrite Ht. cbn [p_kw].
  kw "WHERE".
  rewrite p_conds_del; auto. destruct columns as [|c columns]; [congruence|]. cbn [and_tokens flat_map app tl length].
  pose proof (and_tokens_length columns). unfold and_tokens in *. lia.
Qed.
