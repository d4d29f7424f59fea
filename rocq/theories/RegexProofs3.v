(** * Regular expressions: the first match is chosen *)

From Coq Require Import String Ascii List Bool Arith Lia Sorted.
From Verif Require Import Py Earley Lexer Regex RegexSpec RegexProofs RegexProofs2.
Import ListNotations.
Local Open Scope nat_scope.
Local Open Scope string_scope.
Local Open Scope list_scope.

(** the matches with the choices that lead to them *)
Definition then_ (b : bool) (n : nat) (cs : list bool) (l : list (nat * list bool)) : list (nat * list bool) :=
  map (fun p => (n + fst p, b :: cs ++ snd p)) l.
Definition star_paths (pa : string -> list (nat * list bool)) : nat -> string -> list (nat * list bool) :=
  fix star (k : nat) (s : string) {struct k} : list (nat * list bool) :=
    match k with
    | O => [(0, [false])]
    | S k' => flat_map (fun p => match fst p with
                                 | O => [(0, true :: snd p)]
                                 | S _ => then_ true (fst p) (snd p) (star k' (drop (fst p) s))
                                 end) (pa s) ++ [(0, [false])]
    end.
Definition lazy_paths (pa : string -> list (nat * list bool)) : nat -> string -> list (nat * list bool) :=
  fix star (k : nat) (s : string) {struct k} : list (nat * list bool) :=
    match k with
    | O => [(0, [true])]
    | S k' => (0, [true]) :: flat_map (fun p => match fst p with
                                 | O => [(0, false :: snd p)]
                                 | S _ => then_ false (fst p) (snd p) (star k' (drop (fst p) s))
                                 end) (pa s)
    end.
Fixpoint paths (r : re) (s : string) {struct r} : list (nat * list bool) :=
  match r with
  | RSeq a b => flat_map (fun p => map (fun q => (fst p + fst q, snd p ++ snd q)) (paths b (drop (fst p) s))) (paths a s)
  | RAlt a b => map (fun p => (fst p, true :: snd p)) (paths a s) ++ map (fun p => (fst p, false :: snd p)) (paths b s)
  | RStar a => star_paths (paths a) (S (String.length s)) s
  | RLazy a => lazy_paths (paths a) (S (String.length s)) s
  | ROpt a => map (fun p => (fst p, true :: snd p)) (paths a s) ++ [(0, [false])]
  | _ => map (fun n => (n, [])) (matches r s)
  end.

Lemma flat_map_map {A B C} (f : A -> B) (g : B -> list C) l : flat_map g (map f l) = flat_map (fun x => g (f x)) l.
Proof. induction l as [|x l IH]; [reflexivity|]. cbn. now rewrite IH. Qed.
Lemma map_flat_map {A B C} (f : A -> list B) (g : B -> C) l : map g (flat_map f l) = flat_map (fun x => map g (f x)) l.
Proof. induction l as [|x l IH]; [reflexivity|]. cbn. now rewrite map_app, IH. Qed.

Lemma star_fst a (H : forall s, map fst (paths a s) = matches a s) k : forall s, map fst (star_paths (paths a) k s) = star_from a k s.
Proof.
  induction k as [|k IH]; intros s; [reflexivity|]. cbn [star_paths star_from]. rewrite map_app, <- H, map_flat_map, flat_map_map. f_equal.
  apply flat_map_ext. intros [[|n] cs]; [reflexivity|]. cbn [fst snd]. rewrite <- IH. unfold then_. now rewrite !map_map.
Qed.
Lemma lazy_fst a (H : forall s, map fst (paths a s) = matches a s) k : forall s, map fst (lazy_paths (paths a) k s) = lazy_from a k s.
Proof.
  induction k as [|k IH]; intros s; [reflexivity|]. cbn [lazy_paths lazy_from map fst]. rewrite <- H, map_flat_map, flat_map_map. f_equal.
  apply flat_map_ext. intros [[|n] cs]; [reflexivity|]. cbn [fst snd]. rewrite <- IH. unfold then_. now rewrite !map_map.
Qed.
Lemma paths_fst r : forall s, map fst (paths r s) = matches r s.
Proof.
  induction r as [|b l| |a IHa b IHb|a IHa b IHb|a IHa|a IHa|a IHa|]; intros s;
    try (cbn [paths]; rewrite map_map; cbn [fst]; apply map_id).
  - rewrite matches_seq. cbn [paths]. rewrite <- IHa, map_flat_map, flat_map_map. apply flat_map_ext. intros [n cs]. cbn [fst snd].
    rewrite <- IHb, !map_map. reflexivity.
  - cbn [paths matches]. rewrite map_app, !map_map. cbn [fst]. now rewrite <- IHa, <- IHb.
  - apply star_fst, IHa.
  - apply lazy_fst, IHa.
  - cbn [paths matches]. rewrite map_app, map_map. cbn [fst map]. now rewrite <- IHa.
Qed.
Lemma paths_le r s n cs : In (n, cs) (paths r s) -> n <= String.length s.
Proof. intros H. apply (matches_le r). rewrite <- paths_fst. now apply (in_map fst) in H. Qed.

(** ** soundness *)
Lemma star_sound a (H : forall s n cs, In (n, cs) (paths a s) -> path a s n cs) k :
  forall s n cs, In (n, cs) (star_paths (paths a) k s) -> path (RStar a) s n cs.
Proof.
  induction k as [|k IH]; intros s n cs Hn.
  - destruct Hn as [[= <- <-]|[]]. constructor.
  - cbn [star_paths] in Hn. apply in_app_or in Hn as [Hn|[[= <- <-]|[]]]; [|constructor].
    apply in_flat_map in Hn as ([m ds] & Hm & Hn). cbn [fst snd] in Hn. destruct m as [|m].
    + destruct Hn as [[= <- <-]|[]]. apply p_last. auto.
    + apply in_map_iff in Hn as ([j es] & [= <- <-] & Hj). cbn [fst snd].
      apply (p_round a s (S m) j); [auto|discriminate|auto].
Qed.
Lemma lazy_sound a (H : forall s n cs, In (n, cs) (paths a s) -> path a s n cs) k :
  forall s n cs, In (n, cs) (lazy_paths (paths a) k s) -> path (RLazy a) s n cs.
Proof.
  induction k as [|k IH]; intros s n cs Hn.
  - destruct Hn as [[= <- <-]|[]]. constructor.
  - cbn [lazy_paths] in Hn. destruct Hn as [[= <- <-]|Hn]; [constructor|].
    apply in_flat_map in Hn as ([m ds] & Hm & Hn). cbn [fst snd] in Hn. destruct m as [|m].
    + destruct Hn as [[= <- <-]|[]]. apply p_lazy_last. auto.
    + apply in_map_iff in Hn as ([j es] & [= <- <-] & Hj). cbn [fst snd].
      apply (p_lazy_round a s (S m) j); [auto|discriminate|auto].
Qed.
Lemma paths_sound r : forall s n cs, In (n, cs) (paths r s) -> path r s n cs.
Proof.
  induction r as [|b l| |a IHa b IHb|a IHa b IHb|a IHa|a IHa|a IHa|]; intros s n cs Hn.
  - destruct Hn as [[= <- <-]|[]]. constructor.
  - destruct s as [|c s]; [destruct Hn|]. cbn [paths matches one_char] in Hn.
    destruct (class_test b l c) eqn:E; [destruct Hn as [[= <- <-]|[]]|destruct Hn]. apply class_meant in E. now constructor.
  - destruct s as [|c s]; [destruct Hn|]. cbn [paths matches one_char] in Hn.
    destruct (Ascii.eqb_spec c newline) as [|E]; [destruct Hn|]. destruct Hn as [[= <- <-]|[]]. now constructor.
  - cbn [paths] in Hn. apply in_flat_map in Hn as ([k ds] & Hk & Hn). apply in_map_iff in Hn as ([m es] & [= <- <-] & Hm).
    constructor; auto.
  - cbn [paths] in Hn. apply in_app_or in Hn as [Hn|Hn]; apply in_map_iff in Hn as ([m ds] & [= <- <-] & Hm); constructor; auto.
  - now apply (star_sound a IHa (S (String.length s))).
  - now apply (lazy_sound a IHa (S (String.length s))).
  - cbn [paths] in Hn. apply in_app_or in Hn as [Hn|[[= <- <-]|[]]]; [|constructor].
    apply in_map_iff in Hn as ([m ds] & [= <- <-] & Hm). constructor; auto.
  - cbn [paths matches] in Hn. destruct s as [|c [|d s]]; [| |destruct Hn].
    + destruct Hn as [[= <- <-]|[]]. constructor.
    + destruct (Ascii.eqb_spec c newline) as [->|]; [destruct Hn as [[= <- <-]|[]]; constructor|destruct Hn].
Qed.

(** ** completeness *)
Lemma star_paths_more a k : forall s, String.length s < k ->
  star_paths (paths a) k s = star_paths (paths a) (S (String.length s)) s.
Proof.
  induction k as [k IH] using lt_wf_ind; intros s Hk. destruct k as [|k]; [lia|].
  cbn [star_paths]. f_equal. apply flat_map_ext_in. intros [[|n] cs] Hn; [reflexivity|]. cbn [fst snd]. f_equal.
  apply paths_le in Hn. assert (Hl : String.length (drop (S n) s) < String.length s) by (rewrite drop_len; lia).
  transitivity (star_paths (paths a) (S (String.length (drop (S n) s))) (drop (S n) s)).
  - apply IH; lia.
  - symmetry. apply IH; lia.
Qed.
Lemma lazy_paths_more a k : forall s, String.length s < k ->
  lazy_paths (paths a) k s = lazy_paths (paths a) (S (String.length s)) s.
Proof.
  induction k as [k IH] using lt_wf_ind; intros s Hk. destruct k as [|k]; [lia|].
  cbn [lazy_paths]. f_equal. apply flat_map_ext_in. intros [[|n] cs] Hn; [reflexivity|]. cbn [fst snd]. f_equal.
  apply paths_le in Hn. assert (Hl : String.length (drop (S n) s) < String.length s) by (rewrite drop_len; lia).
  transitivity (lazy_paths (paths a) (S (String.length (drop (S n) s))) (drop (S n) s)).
  - apply IH; lia.
  - symmetry. apply IH; lia.
Qed.
Lemma paths_complete r s n cs : path r s n cs -> In (n, cs) (paths r s).
Proof.
  induction 1 as [s|b l c s H|c s H|a b s n m cs ds H1 IH1 H2 IH2|a b s n cs H IH|a b s n cs H IH
                 |a s|a s cs H IH|a s n m cs ds H1 IH1 H0 H2 IH2|a s|a s cs H IH|a s n m cs ds H1 IH1 H0 H2 IH2|a s n cs H IH|a s| |].
  - now left.
  - cbn [paths matches one_char]. apply class_meant in H. rewrite H. now left.
  - cbn [paths matches one_char]. apply Ascii.eqb_neq in H. rewrite H. now left.
  - cbn [paths]. apply in_flat_map. exists (n, cs). split; [exact IH1|]. apply in_map_iff. now exists (m, ds).
  - cbn [paths]. apply in_or_app. left. apply in_map_iff. now exists (n, cs).
  - cbn [paths]. apply in_or_app. right. apply in_map_iff. now exists (n, cs).
  - cbn [paths star_paths]. apply in_or_app. right. now left.
  - cbn [paths star_paths]. apply in_or_app. left. apply in_flat_map. exists (0, cs). split; [exact IH|now left].
  - cbn [paths star_paths]. apply in_or_app. left. apply in_flat_map. exists (n, cs). split; [exact IH1|].
    cbn [fst snd]. destruct n as [|n]; [congruence|]. apply in_map_iff. exists (m, ds). split; [reflexivity|].
    rewrite star_paths_more; [exact IH2|]. apply paths_le in IH1. rewrite drop_len. lia.
  - now left.
  - cbn [paths lazy_paths]. right. apply in_flat_map. exists (0, cs). split; [exact IH|now left].
  - cbn [paths lazy_paths]. right. apply in_flat_map. exists (n, cs). split; [exact IH1|].
    cbn [fst snd]. destruct n as [|n]; [congruence|]. apply in_map_iff. exists (m, ds). split; [reflexivity|].
    rewrite lazy_paths_more; [exact IH2|]. apply paths_le in IH1. rewrite drop_len. lia.
  - cbn [paths]. apply in_or_app. left. apply in_map_iff. now exists (n, cs).
  - cbn [paths]. apply in_or_app. right. now left.
  - now left.
  - now left.
Qed.

(** ** order *)
Definition before (p q : nat * list bool) : Prop := earlier (snd p) (snd q).
Lemma earlier_cons b cs ds : earlier cs ds -> earlier (b :: cs) (b :: ds).
Proof. intros (c & x & y & -> & ->). exists (b :: c), x, y. split; reflexivity. Qed.
Lemma earlier_app c cs ds : earlier cs ds -> earlier (c ++ cs) (c ++ ds).
Proof. induction c as [|b c IH]; intros H; [exact H|]. now apply earlier_cons, IH. Qed.
Lemma earlier_more cs ds x y : earlier cs ds -> earlier (cs ++ x) (ds ++ y).
Proof. intros (c & a & b & -> & ->). exists c, (a ++ x), (b ++ y). rewrite <- !app_assoc. split; reflexivity. Qed.
Lemma earlier_hd cs ds : earlier (true :: cs) (false :: ds).
Proof. exists [], cs, ds. split; reflexivity. Qed.
Lemma earlier_irrefl cs : ~ earlier cs cs.
Proof. intros (c & a & b & E1 & E2). rewrite E1 in E2. apply app_inv_head in E2. discriminate. Qed.

Lemma sorted_map f l : (forall p q, before p q -> before (f p) (f q)) -> StronglySorted before l -> StronglySorted before (map f l).
Proof.
  intros Hf. induction 1 as [|p l Hl IH Hp]; [constructor|]. cbn [map]. constructor; [exact IH|].
  apply Forall_map. eapply Forall_impl; [|exact Hp]. intros q. apply Hf.
Qed.
Lemma sorted_app l m : StronglySorted before l -> StronglySorted before m ->
  (forall p q, In p l -> In q m -> before p q) -> StronglySorted before (l ++ m).
Proof.
  induction 1 as [|p l Hl IH Hp]; intros Hm H; [exact Hm|]. cbn [app]. constructor.
  - apply IH; [exact Hm|]. intros; apply H; [now right|assumption].
  - apply Forall_app. split; [exact Hp|]. apply Forall_forall. intros q Hq. apply H; [now left|exact Hq].
Qed.
Lemma sorted_flat f l : StronglySorted before l -> (forall p, In p l -> StronglySorted before (f p)) ->
  (forall p q x y, before p q -> In x (f p) -> In y (f q) -> before x y) -> StronglySorted before (flat_map f l).
Proof.
  intros Hl. induction Hl as [|p l Hl IH Hp]; intros H1 H2; [constructor|]. cbn [flat_map]. apply sorted_app.
  - apply H1. now left.
  - apply IH; [|exact H2]. intros; apply H1. now right.
  - intros x y Hx Hy. apply in_flat_map in Hy as (q & Hq & Hy). apply (H2 p q); auto.
    rewrite Forall_forall in Hp. now apply Hp.
Qed.

(** a round, and what follows *)
Lemma round_in b p k (st : string -> list (nat * list bool)) x :
  In x (match fst p with O => [(0, b :: snd p)] | S _ => then_ b (fst p) (snd p) (st k) end) ->
  exists ds, snd x = b :: snd p ++ ds.
Proof.
  destruct (fst p).
  - intros [<-|[]]. exists []. cbn [snd]. now rewrite app_nil_r.
  - intros H. apply in_map_iff in H as (q & <- & _). now exists (snd q).
Qed.
Lemma round_sorted b p l : StronglySorted before l ->
  StronglySorted before (match fst p with O => [(0, b :: snd p)] | S _ => then_ b (fst p) (snd p) l end).
Proof.
  intros H. destruct (fst p); [repeat constructor|]. apply sorted_map; [|exact H]. intros x y Hxy. unfold before in *. cbn [snd].
  now apply earlier_cons, earlier_app.
Qed.
Lemma paths_sorted r : forall s, StronglySorted before (paths r s).
Proof.
  assert (One : forall x, StronglySorted before [x]) by (intros; repeat constructor).
  induction r as [|b l| |a IHa b IHb|a IHa b IHb|a IHa|a IHa|a IHa|]; intros s.
  - apply One.
  - destruct s as [|c s]; [constructor|]. cbn [paths matches one_char]. destruct (class_test b l c); [apply One|constructor].
  - destruct s as [|c s]; [constructor|]. cbn [paths matches one_char]. destruct (negb _); [apply One|constructor].
  - cbn [paths]. apply sorted_flat; [apply IHa| |].
    + intros p _. apply sorted_map; [|apply IHb]. intros x y Hxy. unfold before in *. cbn [snd]. now apply earlier_app.
    + intros p q x y Hpq Hx Hy. apply in_map_iff in Hx as (x' & <- & _). apply in_map_iff in Hy as (y' & <- & _).
      unfold before in *. cbn [snd]. now apply earlier_more.
  - cbn [paths]. apply sorted_app.
    + apply sorted_map; [|apply IHa]. intros x y. unfold before. cbn [snd]. apply earlier_cons.
    + apply sorted_map; [|apply IHb]. intros x y. unfold before. cbn [snd]. apply earlier_cons.
    + intros p q Hp Hq. apply in_map_iff in Hp as (x & <- & _). apply in_map_iff in Hq as (y & <- & _). apply earlier_hd.
  - cbn [paths]. generalize (S (String.length s)). intros k. revert s. induction k as [|k IH]; intros s; [apply One|].
    cbn [star_paths]. apply sorted_app; [|apply One|].
    + apply sorted_flat; [apply IHa| |].
      * intros p _. apply round_sorted, IH.
      * intros p q x y Hpq Hx Hy. apply round_in in Hx as (u & Ex). apply round_in in Hy as (v & Ey).
        unfold before in *. rewrite Ex, Ey. now apply earlier_cons, earlier_more.
    + intros p q Hp [<-|[]]. apply in_flat_map in Hp as (x & _ & Hp). apply round_in in Hp as (u & Ex).
      unfold before. rewrite Ex. apply earlier_hd.
  - cbn [paths]. generalize (S (String.length s)). intros k. revert s. induction k as [|k IH]; intros s; [apply One|].
    cbn [lazy_paths]. constructor.
    + apply sorted_flat; [apply IHa| |].
      * intros p _. apply round_sorted, IH.
      * intros p q x y Hpq Hx Hy. apply round_in in Hx as (u & Ex). apply round_in in Hy as (v & Ey).
        unfold before in *. rewrite Ex, Ey. now apply earlier_cons, earlier_more.
    + apply Forall_forall. intros p Hp. apply in_flat_map in Hp as (x & _ & Hp). apply round_in in Hp as (u & Ex).
      unfold before. rewrite Ex. apply earlier_hd.
  - cbn [paths]. apply sorted_app; [|apply One|].
    + apply sorted_map; [|apply IHa]. intros x y. unfold before. cbn [snd]. apply earlier_cons.
    + intros p q Hp [<-|[]]. apply in_map_iff in Hp as (x & <- & _). apply earlier_hd.
  - cbn [paths matches]. destruct s as [|c [|d s]]; [apply One| |constructor]. destruct (Ascii.eqb c newline); [apply One|constructor].
Qed.

(** the match of [re.match] is the one that is reached by the preferred choices *)
Lemma first_match r s n : re_match r s = Some n <->
  exists cs, path r s n cs /\ forall n' cs', path r s n' cs' -> (n' = n /\ cs' = cs) \/ earlier cs cs'.
Proof.
  unfold re_match. rewrite <- paths_fst. pose proof (paths_sorted r s) as Hs. split.
  - destruct (paths r s) as [|[m cs] l] eqn:E; [discriminate|]. intros [= ->]. exists cs. split.
    + apply paths_sound. rewrite E. now left.
    + intros n' cs' H. apply paths_complete in H. rewrite E in H. destruct H as [[= -> ->]|H]; [now left|]. right.
      apply StronglySorted_inv in Hs as [_ Hs]. rewrite Forall_forall in Hs. apply (Hs _ H).
  - intros (cs & H & Hm). apply paths_complete in H. destruct (paths r s) as [|[m ds] l] eqn:E; [destruct H|]. cbn [map hd_error fst].
    destruct H as [[= -> ->]|H]; [reflexivity|]. exfalso.
    apply StronglySorted_inv in Hs as [_ Hs]. rewrite Forall_forall in Hs. specialize (Hs _ H). unfold before in Hs. cbn [snd] in Hs.
    destruct (Hm m ds) as [[-> ->]|He].
    + apply paths_sound. rewrite E. now left.
    + now apply earlier_irrefl in Hs.
    + destruct Hs as (c & x & y & -> & ->). destruct He as (c' & x' & y' & E1 & E2).
      clear -E1 E2. revert c' E1 E2. induction c as [|b c IH]; intros [|b' c'] E1 E2; cbn in *; try discriminate.
      * injection E1 as <- _. discriminate.
      * injection E1 as -> _. discriminate.
      * injection E1 as _ E1. injection E2 as _ E2. now apply (IH c').
Qed.

(** and there is one, when there is a match *)
Lemma described_path r s n : In n (matches r s) <-> exists cs, path r s n cs.
Proof.
  rewrite <- paths_fst. rewrite in_map_iff. split.
  - intros ([m cs] & <- & H). exists cs. now apply paths_sound.
  - intros (cs & H). exists (n, cs). split; [reflexivity|]. now apply paths_complete.
Qed.
