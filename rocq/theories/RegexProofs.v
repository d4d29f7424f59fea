(** * Regular expressions: the hand-written scanners do what the patterns say *)

From Coq Require Import String Ascii List Bool Arith Lia.
From Verif Require Import Py InferenceModule Earley Lexer InferenceRuleParser Regex.
Import ListNotations.
Local Open Scope nat_scope.
Local Open Scope string_scope.
Local Open Scope list_scope.

Lemma drop_nil n : drop n "" = "".
Proof. destruct n; reflexivity. Qed.
Lemma drop_len n s : String.length (drop n s) = String.length s - n.
Proof. revert s. induction n as [|n IH]; intros [|c s]; simpl; auto. Qed.
Lemma drop_drop n m s : drop m (drop n s) = drop (n + m) s.
Proof. revert s. induction n as [|n IH]; intros [|c s]; simpl; auto. now rewrite drop_nil. Qed.

Lemma matches_seq a b s : matches (RSeq a b) s =
  flat_map (fun n => map (Nat.add n) (matches b (drop n s))) (matches a s).
Proof. reflexivity. Qed.

(** ** repetition *)

Definition star_from (a : re) : nat -> string -> list nat :=
  fix star (k : nat) (s : string) {struct k} : list nat :=
    match k with
    | O => [0]
    | S k' => flat_map (fun n => match n with
                                 | O => [0]
                                 | S _ => map (Nat.add n) (star k' (drop n s))
                                 end) (matches a s) ++ [0]
    end.
Definition lazy_from (a : re) : nat -> string -> list nat :=
  fix star (k : nat) (s : string) {struct k} : list nat :=
    match k with
    | O => [0]
    | S k' => 0 :: flat_map (fun n => match n with
                                      | O => [0]
                                      | S _ => map (Nat.add n) (star k' (drop n s))
                                      end) (matches a s)
    end.

(** no match is longer than the text *)
Lemma matches_le r : forall s n, In n (matches r s) -> n <= String.length s.
Proof.
  induction r as [|b l| |a IHa b IHb|a IHa b IHb|a IHa|a IHa|a IHa|]; intros s n Hn.
  - destruct Hn as [<-|[]]. lia.
  - destruct s as [|c s]; [destruct Hn|]. cbn in Hn. destruct (class_test b l c); [destruct Hn as [<-|[]]|destruct Hn]. simpl. lia.
  - destruct s as [|c s]; [destruct Hn|]. cbn [matches one_char] in Hn. destruct (negb _); [destruct Hn as [<-|[]]|destruct Hn]. simpl. lia.
  - rewrite matches_seq in Hn. apply in_flat_map in Hn as (k & Hk & Hn). apply in_map_iff in Hn as (m & <- & Hm).
    apply IHa in Hk. apply IHb in Hm. rewrite drop_len in Hm. lia.
  - cbn [matches] in Hn. apply in_app_or in Hn as [Hn|Hn]; auto.
  - change (matches (RStar a) s) with (star_from a (S (String.length s)) s) in Hn.
    revert Hn. generalize (S (String.length s)). intros k. revert s n. induction k as [|k IH]; intros s n Hn.
    + destruct Hn as [<-|[]]. lia.
    + cbn [star_from] in Hn. apply in_app_or in Hn as [Hn|[<-|[]]]; [|lia].
      apply in_flat_map in Hn as (m & Hm & Hn). destruct m as [|m]; [destruct Hn as [<-|[]]; lia|].
      apply in_map_iff in Hn as (j & <- & Hj). apply IHa in Hm. apply IH in Hj. rewrite drop_len in Hj. lia.
  - change (matches (RLazy a) s) with (lazy_from a (S (String.length s)) s) in Hn.
    revert Hn. generalize (S (String.length s)). intros k. revert s n. induction k as [|k IH]; intros s n Hn.
    + destruct Hn as [<-|[]]. lia.
    + cbn [lazy_from] in Hn. destruct Hn as [<-|Hn]; [lia|].
      apply in_flat_map in Hn as (m & Hm & Hn). destruct m as [|m]; [destruct Hn as [<-|[]]; lia|].
      apply in_map_iff in Hn as (j & <- & Hj). apply IHa in Hm. apply IH in Hj. rewrite drop_len in Hj. lia.
  - cbn [matches] in Hn. apply in_app_or in Hn as [Hn|[<-|[]]]; [auto|lia].
  - cbn [matches] in Hn. destruct s as [|c [|d s]]; [destruct Hn as [<-|[]]; lia| |destruct Hn].
    destruct (Ascii.eqb c newline); [destruct Hn as [<-|[]]; lia|destruct Hn].
Qed.

(** more rounds than there are characters make no difference *)
Lemma flat_map_ext_in {A B} (f g : A -> list B) l : (forall x, In x l -> f x = g x) -> flat_map f l = flat_map g l.
Proof. induction l as [|x l IH]; intros H; [reflexivity|]. cbn. rewrite (H x (or_introl eq_refl)), IH; [reflexivity|]. intros; apply H; now right. Qed.
Lemma star_more a k : forall s, String.length s < k -> star_from a k s = star_from a (S (String.length s)) s.
Proof.
  induction k as [k IH] using lt_wf_ind; intros s Hk. destruct k as [|k]; [lia|].
  cbn [star_from]. f_equal. apply flat_map_ext_in. intros [|n] Hn; [reflexivity|]. f_equal.
  apply matches_le in Hn. assert (Hl : String.length (drop (S n) s) < String.length s) by (rewrite drop_len; lia).
  transitivity (star_from a (S (String.length (drop (S n) s))) (drop (S n) s)).
  - apply IH; lia.
  - symmetry. destruct (Nat.eq_dec k (String.length s)) as [->|]; [apply IH; lia|apply IH; lia].
Qed.
Lemma lazy_more a k : forall s, String.length s < k -> lazy_from a k s = lazy_from a (S (String.length s)) s.
Proof.
  induction k as [k IH] using lt_wf_ind; intros s Hk. destruct k as [|k]; [lia|].
  cbn [lazy_from]. f_equal. apply flat_map_ext_in. intros [|n] Hn; [reflexivity|]. f_equal.
  apply matches_le in Hn. assert (Hl : String.length (drop (S n) s) < String.length s) by (rewrite drop_len; lia).
  transitivity (lazy_from a (S (String.length (drop (S n) s))) (drop (S n) s)).
  - apply IH; lia.
  - symmetry. apply IH; lia.
Qed.

Lemma star_step a s :
  matches (RStar a) s =
  flat_map (fun n => match n with
                     | O => [0]
                     | S _ => map (Nat.add n) (matches (RStar a) (drop n s))
                     end) (matches a s) ++ [0].
Proof.
  change (matches (RStar a) s) with (star_from a (S (String.length s)) s) at 1.
  cbn [star_from]. f_equal. apply flat_map_ext_in. intros [|n] Hn; [reflexivity|]. f_equal.
  apply star_more. apply matches_le in Hn. rewrite drop_len. lia.
Qed.
Lemma lazy_step a s :
  matches (RLazy a) s =
  0 :: flat_map (fun n => match n with
                     | O => [0]
                     | S _ => map (Nat.add n) (matches (RLazy a) (drop n s))
                     end) (matches a s).
Proof.
  change (matches (RLazy a) s) with (lazy_from a (S (String.length s)) s) at 1.
  cbn [lazy_from]. f_equal. apply flat_map_ext_in. intros [|n] Hn; [reflexivity|]. f_equal.
  apply lazy_more. apply matches_le in Hn. rewrite drop_len. lia.
Qed.
(** when no round is empty *)
Lemma star_eq a c s : (forall n, In n (matches a (String c s)) -> n <> 0) ->
  matches (RStar a) (String c s) =
  flat_map (fun n => match n with
                     | O => []
                     | S _ => map (Nat.add n) (matches (RStar a) (drop n (String c s)))
                     end) (matches a (String c s)) ++ [0].
Proof.
  intros H. rewrite star_step. f_equal. apply flat_map_ext_in. intros [|n] Hn; [|reflexivity]. now destruct (H 0 Hn).
Qed.
Lemma star_nil a : matches a "" = [] -> matches (RStar a) "" = [0].
Proof. intros H. rewrite star_step, H. reflexivity. Qed.

(** ** repetition of one character *)

(** how many characters at the start satisfy the test *)
Fixpoint run (p : ascii -> bool) (s : string) : nat :=
  match s with String c s' => if p c then S (run p s') else 0 | EmptyString => 0 end.

(** [r] takes one character that satisfies [p] *)
Definition single (r : re) (p : ascii -> bool) : Prop := forall s, matches r s = one_char p s.

Lemma single_class b l : single (RClass b l) (class_test b l).
Proof. intros s. reflexivity. Qed.
Lemma single_any : single RAny (fun c => negb (Ascii.eqb c newline)).
Proof. intros s. reflexivity. Qed.

Fixpoint down (n : nat) : list nat := match n with O => [0] | S n' => n :: down n' end.

Lemma map_down n : map S (down n) ++ [0] = down (S n).
Proof. induction n as [|n IH]; [reflexivity|]. cbn [down map app] in *. now rewrite IH. Qed.

Lemma star_single r p s : single r p -> matches (RStar r) s = down (run p s).
Proof.
  intros Hr. induction s as [|c s IH]; [apply star_nil; apply Hr|].
  rewrite star_eq by (intros n Hn; rewrite Hr in Hn; cbn in Hn; destruct (p c); [destruct Hn as [<-|[]]; discriminate|destruct Hn]). rewrite Hr. cbn [one_char run].
  destruct (p c); [|reflexivity]. cbn [flat_map drop]. rewrite app_nil_r, IH.
  rewrite <- map_down. reflexivity.
Qed.

Lemma match_seq_single r p b c s : single r p ->
  matches (RSeq r b) (String c s) = if p c then map S (matches b s) else [].
Proof.
  intros Hr. rewrite matches_seq, Hr. cbn [one_char]. destruct (p c); [|reflexivity].
  cbn [flat_map drop]. now rewrite app_nil_r.
Qed.
Lemma match_seq_single_nil r p b : single r p -> matches (RSeq r b) "" = [].
Proof. intros Hr. now rewrite matches_seq, Hr. Qed.

Lemma plus_single r p s : single r p ->
  matches (RPlus r) s = match run p s with O => [] | S n => map S (down n) end.
Proof.
  intros Hr. unfold RPlus. destruct s as [|c s]; [now rewrite (match_seq_single_nil r p)|].
  rewrite (match_seq_single r p) by auto. rewrite (star_single r p) by auto. cbn [run].
  destruct (p c); reflexivity.
Qed.

(** after the longest run, the test fails *)
Lemma run_stops p s : match drop (run p s) s with String c _ => p c = false | EmptyString => True end.
Proof. induction s as [|c s IH]; simpl; auto. destruct (p c) eqn:E; simpl; auto. Qed.
Lemma run_inside p s n : n < run p s -> match drop n s with String c _ => p c = true | EmptyString => False end.
Proof.
  revert n. induction s as [|c s IH]; simpl; intros n Hn; [lia|].
  destruct (p c) eqn:E; [|lia]. destruct n as [|n]; simpl; auto. apply IH. lia.
Qed.

(** a run that must be followed by something else *)
Lemma star_then r p b s : single r p ->
  (forall c t, p c = true -> matches b (String c t) = []) ->
  matches (RSeq (RStar r) b) s = map (Nat.add (run p s)) (matches b (drop (run p s) s)).
Proof.
  intros Hr Hb. rewrite matches_seq, (star_single r p) by auto.
  assert (G : forall k, k <= run p s ->
    flat_map (fun n => map (Nat.add n) (matches b (drop n s))) (down k) =
    if Nat.eqb k (run p s) then map (Nat.add k) (matches b (drop k s)) else []).
  { induction k as [|k IH]; intros Hk.
    - cbn [down flat_map]. rewrite app_nil_r. destruct (Nat.eqb_spec 0 (run p s)) as [E|E]; [reflexivity|].
      pose proof (run_inside p s 0 ltac:(lia)) as Hi. destruct (drop 0 s) as [|c t]; [destruct Hi|].
      now rewrite (Hb c t Hi).
    - cbn [down flat_map]. rewrite IH by lia.
      replace (Nat.eqb k (run p s)) with false by (symmetry; apply Nat.eqb_neq; lia). rewrite app_nil_r.
      destruct (Nat.eqb_spec (S k) (run p s)) as [E|E]; [reflexivity|].
      pose proof (run_inside p s (S k) ltac:(lia)) as Hi. destruct (drop (S k) s) as [|c t]; [destruct Hi|].
      now rewrite (Hb c t Hi). }
  rewrite G by lia. now rewrite Nat.eqb_refl.
Qed.

Lemma map_add_S n l : map (Nat.add (S n)) l = map S (map (Nat.add n) l).
Proof. rewrite map_map. apply map_ext. reflexivity. Qed.
Lemma map_S_add n l : map (Nat.add n) (map S l) = map (Nat.add (S n)) l.
Proof. rewrite map_map. apply map_ext. intros; lia. Qed.
Lemma map_add_add n m l : map (Nat.add n) (map (Nat.add m) l) = map (Nat.add (n + m)) l.
Proof. rewrite map_map. apply map_ext. intros; lia. Qed.

Lemma seq_assoc a b c s : matches (RSeq (RSeq a b) c) s = matches (RSeq a (RSeq b c)) s.
Proof.
  rewrite !matches_seq. induction (matches a s) as [|n l IH]; [reflexivity|].
  cbn [flat_map]. rewrite matches_seq, flat_map_app, IH. f_equal. clear.
  assert (G : forall l, flat_map (fun m => map (Nat.add m) (matches c (drop m s))) (map (Nat.add n) l) =
     map (Nat.add n) (flat_map (fun m => map (Nat.add m) (matches c (drop m (drop n s)))) l)).
  { induction l as [|m l IH]; [reflexivity|]. cbn [map flat_map]. rewrite map_app, IH. f_equal.
    rewrite map_add_add, drop_drop. reflexivity. }
  apply G.
Qed.

(** ** the first match *)

Lemma hd_app (l m : list nat) : hd_error (l ++ m) = match hd_error l with Some n => Some n | None => hd_error m end.
Proof. destruct l; reflexivity. Qed.
Lemma hd_map (f : nat -> nat) l : hd_error (map f l) = option_map f (hd_error l).
Proof. destruct l; reflexivity. Qed.
Lemma hd_down n : hd_error (down n) = Some n.
Proof. destruct n; reflexivity. Qed.

Lemma match_alt a b s : re_match (RAlt a b) s =
  match re_match a s with Some n => Some n | None => re_match b s end.
Proof. unfold re_match. cbn [matches]. apply hd_app. Qed.
Lemma match_single r p c s : single r p -> re_match r (String c s) = if p c then Some 1 else None.
Proof. intros Hr. unfold re_match. rewrite Hr. simpl. now destruct (p c). Qed.
Lemma match_then r p b c s : single r p ->
  re_match (RSeq r b) (String c s) = if p c then option_map S (re_match b s) else None.
Proof.
  intros Hr. unfold re_match. rewrite (match_seq_single r p) by auto. destruct (p c); [|reflexivity]. apply hd_map.
Qed.
Lemma match_star r p s : single r p -> re_match (RStar r) s = Some (run p s).
Proof. intros Hr. unfold re_match. rewrite (star_single r p) by auto. apply hd_down. Qed.
Lemma match_star_then r p b s : single r p ->
  (forall c t, p c = true -> matches b (String c t) = []) ->
  re_match (RSeq (RStar r) b) s = option_map (Nat.add (run p s)) (re_match b (drop (run p s) s)).
Proof. intros Hr Hb. unfold re_match. rewrite (star_then r p) by auto. apply hd_map. Qed.

(** ** the characters *)

Lemma single_char c : single (RChar c) (fun d => Ascii.eqb d c).
Proof.
  intros s. unfold RChar. rewrite single_class. destruct s as [|d s]; [reflexivity|]. cbn [one_char].
  unfold class_test. cbn [existsb item_test]. rewrite orb_false_r. now destruct (Ascii.eqb d c).
Qed.
Lemma single_not c : single (RClass true [IChar c]) (fun d => negb (Ascii.eqb d c)).
Proof.
  intros s. rewrite single_class. destruct s as [|d s]; [reflexivity|]. cbn [one_char].
  unfold class_test. cbn [existsb item_test]. rewrite orb_false_r. now destruct (Ascii.eqb d c).
Qed.
Lemma single_item i : single (RClass false [i]) (item_test i).
Proof.
  intros s. rewrite single_class. destruct s as [|d s]; [reflexivity|]. cbn [one_char].
  unfold class_test. cbn [existsb item_test]. rewrite orb_false_r. now destruct (item_test i d).
Qed.

Lemma run_word s : run word_char s = word_run s.
Proof. induction s as [|c s IH]; [reflexivity|]. cbn [run word_run]. now rewrite IH. Qed.
Lemma run_digit s : run digit_char s = digit_run s.
Proof. induction s as [|c s IH]; [reflexivity|]. cbn [run digit_run]. now rewrite IH. Qed.

(** ** quoted texts *)

(** [\q|[^q]] *)
Definition qitem (q : ascii) : re := RAlt (RSeq (RChar backslash) (RChar q)) (RClass true [IChar q]).

Lemma matches_qitem q c s : q <> backslash -> matches (qitem q) (String c s) =
  (if Ascii.eqb c backslash && starts q s then [2] else []) ++ (if Ascii.eqb c q then [] else [1]).
Proof.
  intros Hq. unfold qitem. change (matches (RAlt (RSeq (RChar backslash) (RChar q)) (RClass true [IChar q])) (String c s))
    with (matches (RSeq (RChar backslash) (RChar q)) (String c s) ++ matches (RClass true [IChar q]) (String c s)).
  rewrite (match_seq_single _ _ _ _ _ (single_char backslash)), (single_not q).
  cbn [one_char]. f_equal.
  - destruct (Ascii.eqb c backslash); [|reflexivity]. rewrite single_char. destruct s as [|d s]; [reflexivity|].
    simpl. rewrite Ascii.eqb_sym. now destruct (Ascii.eqb q d).
  - now destruct (Ascii.eqb c q).
Qed.

Lemma qitem_some q c s n : q <> backslash -> In n (matches (qitem q) (String c s)) -> n <> 0.
Proof.
  intros Hq. rewrite matches_qitem by exact Hq. intros H. apply in_app_or in H as [H|H].
  - destruct (_ && _); [destruct H as [<-|[]]; discriminate|destruct H].
  - destruct (Ascii.eqb c q); [destruct H|destruct H as [<-|[]]; discriminate].
Qed.

Lemma hd_flat_shift (l : list nat) s b n :
  hd_error (flat_map (fun m => map (Nat.add m) (matches b (drop m s))) (map (Nat.add n) l)) =
  option_map (Nat.add n) (hd_error (flat_map (fun m => map (Nat.add m) (matches b (drop m (drop n s)))) l)).
Proof.
  assert (G : forall l, flat_map (fun m => map (Nat.add m) (matches b (drop m s))) (map (Nat.add n) l) =
     map (Nat.add n) (flat_map (fun m => map (Nat.add m) (matches b (drop m (drop n s)))) l)).
  { clear l. induction l as [|m l IH]; [reflexivity|]. cbn [map flat_map]. rewrite map_app, IH. f_equal.
    rewrite map_add_add, drop_drop. reflexivity. }
  rewrite G. apply hd_map.
Qed.

(** the closing part of a quoted text *)
Lemma closing q : q <> backslash -> forall s, re_match (RSeq (RStar (qitem q)) (RChar q)) s = quoted_rest q s.
Proof.
  intros Hq s. remember (String.length s) as n eqn:En. revert s En.
  induction n as [n IH] using lt_wf_ind; intros s ->.
  destruct s as [|c s]; [reflexivity|].
  unfold re_match. rewrite matches_seq.
  rewrite star_eq by (intros; eapply qitem_some; eassumption). rewrite matches_qitem by auto.
  assert (Hstep : forall k t, drop k (String c s) = t -> String.length t < String.length (String c s) ->
    hd_error (flat_map (fun m => map (Nat.add m) (matches (RChar q) (drop m (String c s))))
      (map (Nat.add k) (matches (RStar (qitem q)) (drop k (String c s))))) = option_map (Nat.add k) (quoted_rest q t)).
  { intros k t Ht Hl. rewrite Ht. rewrite hd_flat_shift, Ht. f_equal. exact (IH _ Hl t eq_refl). }
  rewrite flat_map_app, hd_app. cbn [quoted_rest].
  assert (Hlast : hd_error (flat_map (fun m => map (Nat.add m) (matches (RChar q) (drop m (String c s)))) [0])
      = if Ascii.eqb c q then Some 1 else None).
  { cbn [flat_map drop]. rewrite single_char. cbn [one_char]. now destruct (Ascii.eqb c q). }
  rewrite Hlast. destruct (Ascii.eqb_spec c q) as [->|Hc].
  - assert (Ascii.eqb q backslash = false) as -> by now apply Ascii.eqb_neq. reflexivity.
  - destruct (Ascii.eqb c backslash); simpl andb.
    + destruct s as [|d s].
      * cbn [starts app flat_map]. rewrite app_nil_r. rewrite (Hstep 1 ""); [reflexivity|reflexivity|simpl; lia].
      * cbn [starts]. rewrite Ascii.eqb_sym. destruct (Ascii.eqb_spec d q) as [->|Hd].
        -- cbn [app flat_map]. rewrite app_nil_r, flat_map_app, hd_app.
           rewrite (Hstep 2 s); [|reflexivity|simpl; lia].
           rewrite (Hstep 1 (String q s)); [|reflexivity|simpl; lia].
           cbn [quoted_rest]. rewrite Ascii.eqb_refl. destruct (quoted_rest q s); reflexivity.
        -- cbn [app flat_map]. rewrite app_nil_r. rewrite (Hstep 1 (String d s)); [|reflexivity|simpl; lia].
           destruct (quoted_rest q (String d s)); reflexivity.
    + cbn [app flat_map]. rewrite app_nil_r. rewrite (Hstep 1 s); [|reflexivity|simpl; lia].
      destruct (quoted_rest q s); reflexivity.
Qed.

(** the first of [+] is like the first of [*], when the text does not start
    with the quote *)
Lemma closing_plus q s : q <> backslash ->
  re_match (RSeq (RPlus (qitem q)) (RChar q)) s =
  match s with String d _ => if Ascii.eqb d q then None else quoted_rest q s | EmptyString => None end.
Proof.
  intros Hq. destruct s as [|d s]; [reflexivity|].
  destruct (Ascii.eqb_spec d q) as [->|Hd].
  - unfold re_match, RPlus. rewrite seq_assoc, matches_seq, matches_qitem by auto. rewrite Ascii.eqb_refl.
    assert (Ascii.eqb q backslash = false) as -> by now apply Ascii.eqb_neq. reflexivity.
  - rewrite <- (closing q Hq). unfold re_match, RPlus. rewrite seq_assoc. f_equal.
    rewrite (matches_seq (qitem q)), (matches_seq (RStar (qitem q)) (RChar q) (String d s)).
    rewrite star_eq by (intros; eapply qitem_some; eassumption). rewrite flat_map_app.
    assert (flat_map (fun m => map (Nat.add m) (matches (RChar q) (drop m (String d s)))) [0] = []) as ->.
    { cbn [flat_map drop]. rewrite single_char. cbn [one_char]. apply Ascii.eqb_neq in Hd. now rewrite Hd. }
    rewrite app_nil_r.
    assert (G : forall l, (forall n, In n l -> 0 < n) ->
      flat_map (fun n => map (Nat.add n) (matches (RSeq (RStar (qitem q)) (RChar q)) (drop n (String d s)))) l =
      flat_map (fun m => map (Nat.add m) (matches (RChar q) (drop m (String d s))))
        (flat_map (fun n => match n with O => [] | S _ => map (Nat.add n) (matches (RStar (qitem q)) (drop n (String d s))) end) l)).
    { induction l as [|n l IH]; intros Hl; [reflexivity|]. cbn [flat_map]. rewrite flat_map_app.
      rewrite IH by (intros; apply Hl; now right). f_equal.
      specialize (Hl n (or_introl eq_refl)). destruct n as [|n]; [lia|].
      change (matches (RSeq (RStar (qitem q)) (RChar q)) (drop (S n) (String d s))) with
        (flat_map (fun m => map (Nat.add m) (matches (RChar q) (drop m (drop (S n) (String d s)))))
           (matches (RStar (qitem q)) (drop (S n) (String d s)))).
      generalize (matches (RStar (qitem q)) (drop (S n) (String d s))) as ms. clear.
      induction ms as [|m ms IH]; [reflexivity|]. cbn [map flat_map]. rewrite map_app, IH. f_equal.
      rewrite map_add_add, drop_drop. reflexivity. }
    apply G. rewrite matches_qitem by auto. intros n Hn.
    destruct (Ascii.eqb d backslash && starts q s), (Ascii.eqb d q); simpl in Hn; intuition lia.
Qed.

(** [q(?:\\q|[^q])+q] *)
Definition qtext (q : ascii) : re := RSeq (RChar q) (RSeq (RPlus (qitem q)) (RChar q)).

Lemma match_qtext q c s : q <> backslash ->
  re_match (qtext q) (String c s) =
  if Ascii.eqb c q then match quoted q (String c s) with O => None | n => Some n end else None.
Proof.
  intros Hq. unfold qtext. rewrite (match_then _ _ _ _ _ (single_char q)), closing_plus by auto.
  destruct (Ascii.eqb c q) eqn:E; [|reflexivity]. unfold quoted. rewrite E.
  destruct s as [|d s]; [reflexivity|]. destruct (Ascii.eqb d q); [reflexivity|]. cbn [negb andb].
  destruct (quoted_rest q (String d s)); reflexivity.
Qed.

(** ** words and numbers *)

Definition rword : re := RClass false [IWord].
Definition rdigit : re := RClass false [IDigit].
Definition rupper : re := RClass false [IRange "A" "Z"].
Definition upper (c : ascii) : bool := Nat.leb 65 (nat_of_ascii c) && Nat.leb (nat_of_ascii c) 90.

Lemma single_word : single rword word_char. Proof. apply (single_item IWord). Qed.
Lemma single_digit : single rdigit digit_char. Proof. apply (single_item IDigit). Qed.
Lemma single_upper : single rupper upper. Proof. apply (single_item (IRange "A" "Z")). Qed.
Lemma upper_word c : upper c = true -> word_char c = true.
Proof. unfold upper, word_char. cbv zeta. intros ->. now rewrite orb_true_r. Qed.

Lemma match_words c s : re_match (RPlus rword) (String c s) =
  if word_char c then Some (word_run (String c s)) else None.
Proof.
  unfold RPlus. rewrite (match_then _ _ _ _ _ single_word), (match_star _ _ _ single_word), run_word.
  cbn [word_run]. now destruct (word_char c).
Qed.
Lemma match_variable c s : re_match (RSeq rupper (RStar rword)) (String c s) =
  if upper c then Some (word_run (String c s)) else None.
Proof.
  rewrite (match_then _ _ _ _ _ single_upper), (match_star _ _ _ single_word), run_word.
  cbn [word_run]. destruct (upper c) eqn:E; [|reflexivity]. now rewrite (upper_word c E).
Qed.
Lemma match_digits c s : re_match (RPlus rdigit) (String c s) =
  if digit_char c then Some (digit_run (String c s)) else None.
Proof.
  unfold RPlus. rewrite (match_then _ _ _ _ _ single_digit), (match_star _ _ _ single_digit), run_digit.
  cbn [digit_run]. now destruct (digit_char c).
Qed.

Definition rfloat : re := RSeq (RPlus rdigit) (RSeq (RChar ".") (RPlus rdigit)).

Lemma digit_no_dot c t b : digit_char c = true -> matches (RSeq (RChar ".") b) (String c t) = [].
Proof.
  intros H. rewrite (match_seq_single _ _ _ _ _ (single_char ".")).
  destruct (Ascii.eqb_spec c ".") as [->|]; [discriminate H|reflexivity].
Qed.

Lemma match_float c s : re_match rfloat (String c s) =
  let n := digit_run (String c s) in
  if digit_char c && starts "." (drop n (String c s)) then
    match digit_run (drop (n + 1) (String c s)) with O => None | m => Some (n + 1 + m) end
  else None.
Proof.
  unfold rfloat. unfold re_match. unfold RPlus at 1. rewrite seq_assoc. fold (re_match (RSeq rdigit (RSeq (RStar rdigit) (RSeq (RChar ".") (RPlus rdigit)))) (String c s)).
  rewrite (match_then _ _ _ _ _ single_digit). destruct (digit_char c) eqn:E; [|reflexivity].
  rewrite (match_star_then _ _ _ _ single_digit) by (intros; now apply digit_no_dot).
  rewrite run_digit. cbn [digit_run]. rewrite E. cbn [Nat.add drop]. cbv zeta. cbn [andb].
  set (n := digit_run s). destruct (drop n s) as [|d t] eqn:Ed.
  - cbn [starts]. unfold re_match. rewrite (match_seq_single_nil _ _ _ (single_char ".")). reflexivity.
  - rewrite (match_then _ _ _ _ _ (single_char ".")). cbn [starts]. rewrite Ascii.eqb_sym.
    destruct (Ascii.eqb "." d); [|reflexivity].
    assert (drop (n + 1) s = t) as -> by (rewrite <- drop_drop, Ed; reflexivity).
    destruct t as [|e t].
    + reflexivity.
    + rewrite match_digits. cbn [digit_run]. destruct (digit_char e); [|reflexivity].
      simpl. f_equal. lia.
Qed.

(** ** comments *)

Definition rcomment : re := RSeq (RChar "#") (RSeq (RStar RAny) (RChar newline)).

Lemma line_run_run s :
  line_run s = match drop (run (fun c => negb (Ascii.eqb c newline)) s) s with
               | EmptyString => 0
               | String _ _ => S (run (fun c => negb (Ascii.eqb c newline)) s)
               end.
Proof.
  induction s as [|c s IH]; [reflexivity|]. cbn [line_run run]. destruct (Ascii.eqb c newline); [reflexivity|].
  cbn [negb drop]. rewrite IH. now destruct (drop _ s).
Qed.

Lemma match_comment c s : re_match rcomment (String c s) =
  if Ascii.eqb c "#" then match line_run s with O => None | n => Some (S n) end else None.
Proof.
  unfold rcomment. rewrite (match_then _ _ _ _ _ (single_char "#")). destruct (Ascii.eqb c "#"); [|reflexivity].
  rewrite (match_star_then _ _ _ _ single_any).
  2:{ intros d t H. rewrite single_char. cbn [one_char]. now destruct (Ascii.eqb d newline). }
  rewrite line_run_run. pose proof (run_stops (fun c => negb (Ascii.eqb c newline)) s) as Hs.
  destruct (drop _ s) as [|d t]; [reflexivity|]. rewrite (match_single _ _ _ _ (single_char newline)).
  destruct (Ascii.eqb d newline); [|discriminate]. simpl. f_equal. lia.
Qed.

(** ** two characters *)

Lemma match_two a b c s : re_match (RSeq (RChar a) (RChar b)) (String c s) =
  if Ascii.eqb c a && starts b s then Some 2 else None.
Proof.
  rewrite (match_then _ _ _ _ _ (single_char a)). destruct (Ascii.eqb c a); [|reflexivity].
  destruct s as [|d s]; [reflexivity|]. rewrite (match_single _ _ _ _ (single_char b)). cbn [starts andb].
  rewrite Ascii.eqb_sym. now destruct (Ascii.eqb b d).
Qed.
Lemma match_char a c s : re_match (RChar a) (String c s) = if Ascii.eqb c a then Some 1 else None.
Proof. apply (match_single _ _ _ _ (single_char a)). Qed.

(** ** the token patterns *)

Definition grammar_re : re :=
  RAlt (RChar "?") (RAlt (RChar ",") (RAlt (RSeq (RChar "-") (RChar ">")) (RAlt (RChar "(") (RAlt (RChar ")")
  (RAlt (qtext slash) (RAlt (qtext quote1) (RAlt (qtext quote2) (RAlt (RSeq rupper (RStar rword))
  (RAlt (RPlus rword) (RAlt (RChar "+") (RChar "~"))))))))))).
Definition rule_re : re :=
  RAlt (RChar ".") (RAlt (RChar ",") (RAlt (RChar ";") (RAlt (RSeq (RChar ":") (RChar "-")) (RAlt (RChar "(") (RAlt (RChar ")")
  (RAlt rfloat (RAlt (RPlus rdigit) (RAlt (qtext quote1) (RAlt (qtext quote2) (RAlt (RSeq rupper (RStar rword))
  (RAlt (RPlus rword) rcomment))))))))))).

Lemma compile_grammar : compile grammar_pattern = Some grammar_re.
Proof. vm_compute. reflexivity. Qed.
Lemma compile_rule : compile rule_pattern = Some rule_re.
Proof. vm_compute. reflexivity. Qed.

(** the length of a token, 0 for none *)
Definition length_of (o : option nat) : nat := match o with Some n => n | None => 0 end.

Ltac not_backslash := let H := fresh in intros H; discriminate H.
Ltac known_char := match goal with E : Ascii.eqb ?c ?d = true |- _ => apply Ascii.eqb_eq in E; subst c end.

Lemma grammar_token_re c s : length_of (re_match grammar_re (String c s)) = grammar_token (String c s).
Proof.
  unfold grammar_re. rewrite !match_alt, !match_char, !match_two, !match_qtext, match_variable, match_words by not_backslash.
  unfold grammar_token, one_of. cbn [existsb].
  destruct (Ascii.eqb c "?") eqn:?; [reflexivity|]. cbn [orb].
  destruct (Ascii.eqb c ",") eqn:?; [reflexivity|]. cbn [orb].
  destruct (Ascii.eqb c "-" && starts ">" s) eqn:?; [reflexivity|].
  destruct (Ascii.eqb c "(") eqn:?; [reflexivity|]. cbn [orb].
  destruct (Ascii.eqb c ")") eqn:?; [reflexivity|]. cbn [orb].
  destruct (Ascii.eqb c slash) eqn:?.
  { known_char. destruct (quoted slash (String slash s)); reflexivity. }
  destruct (Ascii.eqb c quote1) eqn:?.
  { known_char. destruct (quoted quote1 (String quote1 s)); reflexivity. }
  destruct (Ascii.eqb c quote2) eqn:?.
  { known_char. destruct (quoted quote2 (String quote2 s)); reflexivity. }
  destruct (upper c) eqn:U; [rewrite (upper_word c U); reflexivity|].
  destruct (word_char c); [reflexivity|].
  destruct (Ascii.eqb c "+"); [reflexivity|]. cbn [orb].
  destruct (Ascii.eqb c "~"); reflexivity.
Qed.

Lemma rule_token_re c s : length_of (re_match rule_re (String c s)) = rule_token (String c s).
Proof.
  unfold rule_re. rewrite !match_alt, !match_char, !match_two, !match_qtext, match_float, match_digits, match_variable,
    match_words, match_comment by not_backslash.
  unfold rule_token, one_of. cbn [existsb]. cbv zeta.
  destruct (Ascii.eqb c ".") eqn:?; [reflexivity|]. cbn [orb].
  destruct (Ascii.eqb c ",") eqn:?; [reflexivity|]. cbn [orb].
  destruct (Ascii.eqb c ";") eqn:?; [reflexivity|]. cbn [orb].
  destruct (Ascii.eqb c ":" && starts "-" s) eqn:?; [reflexivity|].
  destruct (Ascii.eqb c "(") eqn:?; [reflexivity|]. cbn [orb].
  destruct (Ascii.eqb c ")") eqn:?; [reflexivity|]. cbn [orb].
  destruct (digit_char c) eqn:D; cbn [andb].
  { destruct (starts "." (drop (digit_run (String c s)) (String c s))); [|reflexivity].
    destruct (digit_run (drop (digit_run (String c s) + 1) (String c s))); reflexivity. }
  destruct (Ascii.eqb c quote1) eqn:?.
  { known_char. destruct (quoted quote1 (String quote1 s)); reflexivity. }
  destruct (Ascii.eqb c quote2) eqn:?.
  { known_char. destruct (quoted quote2 (String quote2 s)); reflexivity. }
  destruct (upper c) eqn:U; [rewrite (upper_word c U); reflexivity|].
  destruct (word_char c); [reflexivity|].
  destruct (Ascii.eqb c "#"); [|reflexivity].
  destruct (line_run s); reflexivity.
Qed.

(** ** findall *)

Lemma findall_re r token : (forall c s, length_of (re_match r (String c s)) = token (String c s)) ->
  forall s, re_findall r s = findall token s.
Proof.
  intros Ht.
  assert (Hskip : forall k s, find_from token k s = find_from token 0 (drop k s)).
  { induction k as [|k IH]; intros [|c s]; try reflexivity. cbn [find_from drop]. apply IH. }
  assert (G : forall k s, String.length s <= k -> re_findall_from k r s = find_from token 0 s).
  { induction k as [|k IH]; intros [|c s] Hk; try reflexivity; [simpl in Hk; lia|].
    cbn [re_findall_from find_from]. specialize (Ht c s). simpl in Hk.
    destruct (re_match r (String c s)) as [[|n]|]; simpl in Ht; rewrite <- Ht.
    - apply IH. lia.
    - f_equal. rewrite Hskip. cbn [drop]. apply IH. rewrite drop_len. lia.
    - apply IH. lia. }
  intros s. now apply G.
Qed.

(** ** sub *)

Definition rspaces : re := RPlus (RClass false [ISpace]).
Lemma compile_spaces : compile space_pattern = Some rspaces.
Proof. reflexivity. Qed.

Lemma single_space : single (RClass false [ISpace]) is_space.
Proof. apply (single_item ISpace). Qed.

Lemma match_spaces c s : re_match rspaces (String c s) =
  if is_space c then Some (S (run is_space s)) else None.
Proof.
  unfold rspaces, RPlus. rewrite (match_then _ _ _ _ _ single_space), (match_star _ _ _ single_space).
  now destruct (is_space c).
Qed.

Lemma sub_spaces s : re_sub rspaces " " s = normalize s.
Proof.
  assert (Hin : forall s, squeeze true s = squeeze false (drop (run is_space s) s)).
  { intros u. induction u as [|c t IH]; [reflexivity|]. cbn [squeeze run]. destruct (is_space c) eqn:E; auto.
    cbn [drop squeeze]. now rewrite E. }
  assert (G : forall k s, String.length s <= k -> re_sub_from k rspaces " " s = squeeze false s).
  { induction k as [|k IH]; intros [|c t] Hk; try reflexivity; [simpl in Hk; lia|].
    cbn [re_sub_from squeeze]. rewrite match_spaces. simpl in Hk. destruct (is_space c).
    - cbn [append drop]. rewrite Hin, IH; auto. rewrite drop_len. lia.
    - rewrite IH; auto. lia. }
  now apply G.
Qed.

(** ** whole tokens *)

Lemma run_all p s : drop (run p s) s = "" <-> (forall c, In c (list_ascii_of_string s) -> p c = true).
Proof.
  induction s as [|c s IH]; simpl; [tauto|]. destruct (p c) eqn:E; simpl.
  - rewrite IH. split; [intros H d [<-|Hd]; auto|intros H d Hd; auto].
  - split; [discriminate|]. intros H. rewrite (H c) in E; auto. discriminate.
Qed.

Lemma all_word_run s : all_word s = match drop (run word_char s) s with EmptyString => true | _ => false end.
Proof. induction s as [|c s IH]; [reflexivity|]. simpl. destruct (word_char c); [exact IH|reflexivity]. Qed.
Lemma all_digits_run s : all_digits s = match drop (run digit_char s) s with EmptyString => true | _ => false end.
Proof. induction s as [|c s IH]; [reflexivity|]. simpl. destruct (digit_char c); [exact IH|reflexivity]. Qed.

(** no newline at the end *)
Definition no_final_newline (s : string) : Prop := forall t, s <> append t (String newline "").

Lemma final_drop n s : no_final_newline s -> no_final_newline (drop n s).
Proof.
  revert s. induction n as [|n IH]; intros [|c s] H; auto. cbn [drop]. apply IH.
  intros t ->. apply (H (String c t)). reflexivity.
Qed.

Lemma match_end s : no_final_newline s -> matches REnd s = match s with EmptyString => [0] | _ => [] end.
Proof.
  destruct s as [|c [|d s]]; intros H; try reflexivity. cbn [matches].
  destruct (Ascii.eqb_spec c newline) as [->|]; [|reflexivity]. now destruct (H "").
Qed.

(** a run up to the end *)
Lemma match_run_end r p s : single r p -> no_final_newline s ->
  re_match (RSeq (RStar r) REnd) s = if match drop (run p s) s with EmptyString => true | _ => false end
    then Some (String.length s) else None.
Proof.
  intros Hr Hs. unfold re_match. rewrite matches_seq, (star_single r p) by auto.
  assert (G : forall k, k < run p s -> flat_map (fun n => map (Nat.add n) (matches REnd (drop n s))) (down k) = []).
  { induction k as [|k IH]; intros Hk; cbn [down flat_map].
    - rewrite match_end by now apply final_drop. pose proof (run_inside p s 0 Hk). now destruct (drop 0 s).
    - rewrite IH by lia. rewrite match_end by now apply final_drop.
      pose proof (run_inside p s (S k) Hk). now destruct (drop (S k) s). }
  assert (Hd : match down (run p s) with n :: l => n = run p s /\
      flat_map (fun n => map (Nat.add n) (matches REnd (drop n s))) l = [] | [] => False end).
  { destruct (run p s) as [|k] eqn:E; simpl; auto. }
  destruct (down (run p s)) as [|n l]; [destruct Hd|]. destruct Hd as [-> Hl].
  cbn [flat_map]. rewrite Hl, app_nil_r, match_end by now apply final_drop.
  destruct (drop (run p s) s) as [|c t] eqn:E; [|reflexivity]. simpl. f_equal.
  assert (String.length (drop (run p s) s) = 0) by now rewrite E. rewrite drop_len in H.
  assert (run p s <= String.length s); [|lia]. clear. induction s as [|c s IH]; simpl; [lia|]. destruct (p c); simpl; lia.
Qed.

Definition found (o : option nat) : bool := match o with Some _ => true | None => false end.

Lemma match_empty_seq b s : re_match (RSeq REmpty b) s = re_match b s.
Proof. unfold re_match. cbn [matches flat_map drop]. rewrite app_nil_r. f_equal. rewrite <- (map_id (matches b s)) at 2. now apply map_ext. Qed.

Definition identifier_re : re := RSeq (RPlus rword) REnd.
Definition variable_re : re := RSeq rupper (RSeq (RStar rword) REnd).
Definition int_re : re := RSeq (RPlus rdigit) REnd.
Definition float_re : re := RSeq (RPlus rdigit) (RSeq (RChar ".") (RSeq (RPlus rdigit) REnd)).
Definition predicate_re : re := RPlus (RClass false [IWord; IChar "_"]).
Lemma compile_identifier : compile identifier_pattern = Some identifier_re. Proof. reflexivity. Qed.
Lemma compile_variable : compile variable_pattern = Some variable_re. Proof. reflexivity. Qed.
Lemma compile_int : compile int_pattern = Some int_re. Proof. reflexivity. Qed.
Lemma compile_float : compile float_pattern = Some float_re. Proof. reflexivity. Qed.
Lemma compile_predicate : compile predicate_pattern = Some predicate_re. Proof. reflexivity. Qed.

Lemma match_assoc a b c s : re_match (RSeq (RSeq a b) c) s = re_match (RSeq a (RSeq b c)) s.
Proof. unfold re_match. now rewrite seq_assoc. Qed.

Lemma final_tail c s : no_final_newline (String c s) -> no_final_newline s.
Proof. apply (final_drop 1). Qed.

Lemma match_plus_end r p s : single r p -> no_final_newline s ->
  found (re_match (RSeq (RPlus r) REnd) s) =
  match s with EmptyString => false | _ => match drop (run p s) s with EmptyString => true | _ => false end end.
Proof.
  intros Hr Hs. unfold RPlus. rewrite match_assoc. destruct s as [|c s].
  - unfold re_match. rewrite (match_seq_single_nil _ _ _ Hr). reflexivity.
  - rewrite (match_then _ _ _ _ _ Hr). cbn [run]. destruct (p c); [|reflexivity].
    rewrite (match_run_end _ _ _ Hr) by (eapply final_tail; eauto). cbn [drop]. now destruct (drop (run p s) s).
Qed.

Lemma identifier_matches s : no_final_newline s -> found (re_match identifier_re s) = is_identifier s.
Proof.
  intros Hs. unfold identifier_re. rewrite (match_plus_end _ _ _ single_word Hs).
  unfold is_identifier. rewrite all_word_run. now destruct s.
Qed.
Lemma int_matches s : no_final_newline s -> found (re_match int_re s) = is_int s.
Proof.
  intros Hs. unfold int_re. rewrite (match_plus_end _ _ _ single_digit Hs).
  unfold is_int. rewrite all_digits_run. now destruct s.
Qed.
Lemma variable_matches s : no_final_newline s -> found (re_match variable_re s) = is_variable s.
Proof.
  intros Hs. unfold variable_re.  destruct s as [|c s].
  - unfold re_match. rewrite (match_seq_single_nil _ _ _ single_upper). reflexivity.
  - rewrite (match_then _ _ _ _ _ single_upper). unfold is_variable. fold (upper c). cbv zeta.
    change (Nat.leb 65 (nat_of_ascii c) && Nat.leb (nat_of_ascii c) 90) with (upper c).
    destruct (upper c); [|reflexivity]. cbn [andb].
    rewrite (match_run_end _ _ _ single_word) by (eapply final_tail; eauto).
    rewrite all_word_run. now destruct (drop (run word_char s) s).
Qed.
Lemma float_matches s : no_final_newline s ->
  found (re_match float_re s) = match float_parts s with Some _ => true | None => false end.
Proof.
  intros Hs. unfold float_re.  unfold RPlus at 1. rewrite match_assoc.
  unfold float_parts. destruct s as [|c s].
  - unfold re_match. rewrite (match_seq_single_nil _ _ _ single_digit). reflexivity.
  - rewrite (match_then _ _ _ _ _ single_digit). cbn [digit_run]. destruct (digit_char c) eqn:E; [|reflexivity].
    rewrite (match_star_then _ _ _ _ single_digit) by (intros; now apply digit_no_dot).
    rewrite run_digit. cbn [take drop Nat.add]. set (n := digit_run s).
    change (String.eqb (String c (take n s)) "") with false. cbn [negb andb].
    destruct (drop n s) as [|d t] eqn:Ed.
    + unfold re_match. rewrite (match_seq_single_nil _ _ _ (single_char ".")). reflexivity.
    + rewrite (match_then _ _ _ _ _ (single_char ".")). cbn [starts]. rewrite Ascii.eqb_sym.
      destruct (Ascii.eqb "." d); [|reflexivity]. cbn [andb].
      assert (drop (n + 1) s = t) as -> by (rewrite <- drop_drop, Ed; reflexivity).
      assert (Ht : no_final_newline t).
      { apply (final_tail d). rewrite <- Ed. apply final_drop. eapply final_tail; eauto. }
      pose proof (match_plus_end _ _ _ single_digit Ht) as Hp. fold rdigit in Hp.
      unfold is_int. rewrite all_digits_run.
      destruct (re_match (RSeq (RPlus rdigit) REnd) t); simpl in Hp |- *; destruct t; simpl in *; try discriminate; try reflexivity;
        rewrite <- Hp; reflexivity.
Qed.

Lemma single_predicate : single (RClass false [IWord; IChar "_"]) word_char.
Proof.
  intros s. rewrite single_class. destruct s as [|c s]; [reflexivity|]. cbn [one_char]. unfold class_test.
  cbn [existsb item_test]. rewrite orb_false_r. destruct (word_char c) eqn:E; [reflexivity|].
  destruct (Ascii.eqb_spec c "_") as [->|]; [discriminate|reflexivity].
Qed.

Lemma predicate_matches s : re_fullmatch predicate_re s = valid_predicate s.
Proof.
  unfold re_fullmatch, predicate_re. rewrite (plus_single _ _ _ single_predicate).
  assert (Hr : forall s, run word_char s <= String.length s).
  { clear. induction s as [|c s IH]; simpl; [lia|]. destruct (word_char c); simpl; lia. }
  assert (G : forall n m, existsb (Nat.eqb (S m)) (map S (down n)) = Nat.leb m n).
  { clear. induction n as [|n IH]; intros m.
    - destruct m; reflexivity.
    - cbn [down map existsb]. rewrite IH. destruct (Nat.eqb_spec (S m) (S (S n))) as [E|E]; cbn [orb].
      + symmetry. apply Nat.leb_le. lia.
      + destruct (Nat.leb_spec m n), (Nat.leb_spec m (S n)); auto; lia. }
  destruct s as [|c s]; [reflexivity|]. unfold valid_predicate. cbn [run all_word String.length].
  destruct (word_char c); [|reflexivity]. cbn [andb]. rewrite G, all_word_run.
  specialize (Hr s). pose proof (drop_len (run word_char s) s) as Hl.
  destruct (drop (run word_char s) s); simpl in Hl.
  - apply Nat.leb_le. lia.
  - apply Nat.leb_gt. lia.
Qed.
