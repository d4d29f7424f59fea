(** * Injectivity of [py_repr] on data values *)

From Coq Require Import ZArith String Ascii List Bool Lia Decimal DecimalString DecimalZ.
From Verif Require Import Py PyFacts.
Import ListNotations.
Local Open Scope nat_scope.
Local Open Scope string_scope.
Local Open Scope list_scope.

(** data: None, booleans, integers, strings and nested containers of these *)
Fixpoint data (v : value) : bool :=
  match v with
  | VNone | VBool _ | VInt _ | VStr _ => true
  | VTuple l | VList l => forallb data l
  | _ => false
  end.

Infix "^^" := String.append (right associativity, at level 60).

Lemma app_assoc_s (a b c : string) : (a ^^ b) ^^ c = a ^^ (b ^^ c).
Proof. induction a; simpl; congruence. Qed.

Lemma app_nil_s (a : string) : a ^^ "" = a.
Proof. induction a; simpl; congruence. Qed.

(** ** integers *)

Lemma repr_Z_parse d :
  option_map Z.of_int (NilZero.int_of_string (NilZero.string_of_int d)) = Some (Z.of_int d).
Proof.
  destruct (Decimal.int_eq_dec d (Decimal.Pos Decimal.Nil)) as [->|H1]; [reflexivity|].
  destruct (Decimal.int_eq_dec d (Decimal.Neg Decimal.Nil)) as [->|H2]; [reflexivity|].
  rewrite NilZero.isi by assumption. reflexivity.
Qed.

Lemma repr_Z_inj a b : repr_Z a = repr_Z b -> a = b.
Proof.
  unfold repr_Z. intros H.
  pose proof (repr_Z_parse (Z.to_int a)) as Ha.
  pose proof (repr_Z_parse (Z.to_int b)) as Hb.
  rewrite H in Ha. rewrite Ha in Hb. injection Hb as Hb.
  now rewrite !DecimalZ.of_to in Hb.
Qed.

Definition numchar (c : ascii) : bool :=
  match c with
  | "0" | "1" | "2" | "3" | "4" | "5" | "6" | "7" | "8" | "9" | "-" => true
  | _ => false
  end%char.

Fixpoint all_chars (f : ascii -> bool) (s : string) : bool :=
  match s with
  | EmptyString => true
  | String c t => f c && all_chars f t
  end.

Lemma numchar_uint d : all_chars numchar (NilEmpty.string_of_uint d) = true.
Proof. induction d; simpl; auto. Qed.

Lemma numchar_uint0 d : all_chars numchar (NilZero.string_of_uint d) = true.
Proof. destruct d; try reflexivity; apply numchar_uint. Qed.

Lemma numchar_Z z : all_chars numchar (repr_Z z) = true.
Proof.
  unfold repr_Z. destruct (Z.to_int z); simpl; apply numchar_uint0.
Qed.

Lemma uint0_nonempty d : NilZero.string_of_uint d <> "".
Proof. destruct d; discriminate. Qed.

Lemma repr_Z_nonempty z : repr_Z z <> "".
Proof.
  unfold repr_Z. destruct (Z.to_int z); simpl; [apply uint0_nonempty|discriminate].
Qed.

(** characters that may follow a printed value inside a container *)
Definition delim (r : string) : Prop :=
  match r with
  | EmptyString => True
  | String c _ => c = ","%char \/ c = "]"%char \/ c = ")"%char
  end.

Lemma delim_not_num c r : delim (String c r) -> numchar c = false.
Proof. simpl. intros [->|[->| ->]]; reflexivity. Qed.

Lemma num_prefix a b r1 r2 :
  all_chars numchar a = true -> all_chars numchar b = true ->
  delim r1 -> delim r2 -> a ^^ r1 = b ^^ r2 -> a = b /\ r1 = r2.
Proof.
  revert b. induction a as [|c a IH]; intros [|d b]; simpl; intros Ha Hb D1 D2 E.
  - auto.
  - exfalso. subst r1. apply delim_not_num in D1. apply andb_true_iff in Hb as [Hb _]. congruence.
  - exfalso. subst r2. apply delim_not_num in D2. apply andb_true_iff in Ha as [Ha _]. congruence.
  - injection E as -> E. apply andb_true_iff in Ha as [_ Ha]. apply andb_true_iff in Hb as [_ Hb].
    destruct (IH b Ha Hb D1 D2 E) as [-> ->]. auto.
Qed.

Lemma repr_Z_prefix a b r1 r2 :
  delim r1 -> delim r2 -> repr_Z a ^^ r1 = repr_Z b ^^ r2 -> a = b /\ r1 = r2.
Proof.
  intros D1 D2 E. apply num_prefix in E as [E ->]; auto using numchar_Z.
  split; auto. now apply repr_Z_inj.
Qed.

(** ** strings *)

Definition hex_val (c : ascii) : nat :=
  let n := nat_of_ascii c in
  if Nat.leb 97 n then n - 87 else n - 48.

(** reads one escaped character; [None] at the closing quote *)
Definition unesc (q : ascii) (s : string) : option (ascii * string) :=
  match s with
  | EmptyString => None
  | String c t =>
      if Ascii.eqb c q then None
      else if Ascii.eqb c chr_backslash then
        match t with
        | EmptyString => None
        | String e u =>
            if Ascii.eqb e "n" then Some (ascii_of_nat 10, u)
            else if Ascii.eqb e "r" then Some (ascii_of_nat 13, u)
            else if Ascii.eqb e "t" then Some (ascii_of_nat 9, u)
            else if Ascii.eqb e "x" then
              match u with
              | String h (String l v) => Some (ascii_of_nat (hex_val h * 16 + hex_val l), v)
              | _ => None
              end
            else Some (e, u)
        end
      else Some (c, t)
  end.

Lemma unesc_char q c x : q = chr_quote \/ q = chr_dquote ->
  unesc q (repr_char q c ^^ x) = Some (c, x).
Proof.
  intros [-> | ->]; destruct c as [[] [] [] [] [] [] [] []]; reflexivity.
Qed.

Lemma unesc_end q x : unesc q (String q x) = None.
Proof. simpl. now rewrite Ascii.eqb_refl. Qed.

Lemma repr_chars_prefix q s t x y : q = chr_quote \/ q = chr_dquote ->
  repr_chars q s ^^ String q x = repr_chars q t ^^ String q y -> s = t /\ x = y.
Proof.
  intros Hq. revert t. induction s as [|c s IH]; intros [|d t]; simpl; intros E.
  - injection E as ->. auto.
  - exfalso. apply (f_equal (unesc q)) in E. rewrite app_assoc_s, unesc_char, unesc_end in E by auto.
    discriminate.
  - exfalso. apply (f_equal (unesc q)) in E. rewrite app_assoc_s, unesc_char, unesc_end in E by auto.
    discriminate.
  - apply (f_equal (unesc q)) in E. rewrite !app_assoc_s, !unesc_char in E by auto.
    injection E as -> E. destruct (IH t E) as [-> ->]. auto.
Qed.

Lemma repr_str_prefix s t x y : repr_str s ^^ x = repr_str t ^^ y -> s = t /\ x = y.
Proof.
  unfold repr_str.
  set (qs := if _ && _ then chr_dquote else chr_quote).
  set (qt := if str_contains chr_quote t && negb (str_contains chr_dquote t) then chr_dquote else chr_quote).
  assert (Hs : qs = chr_quote \/ qs = chr_dquote) by (unfold qs; destruct (_ && _); auto).
  clearbody qs qt. simpl. intros E. injection E as Eq E. subst qt.
  rewrite !app_assoc_s in E. simpl in E.
  now apply repr_chars_prefix in E.
Qed.

(** ** all data values *)

(** the first character tells the kind of value *)
Definition kind (c : ascii) : nat :=
  match c with
  | "N" => 1 | "T" => 2 | "F" => 3
  | "'" | """" => 5 | "(" => 6 | "[" => 7
  | "]" | ")" | "," => 9
  | _ => if numchar c then 4 else 10
  end%char.

Definition vkind (v : value) : nat :=
  match v with
  | VNone => 1 | VBool true => 2 | VBool false => 3 | VInt _ => 4 | VStr _ => 5
  | VTuple _ => 6 | VList _ => 7 | _ => 0
  end.

Definition skind (s : string) : nat :=
  match s with EmptyString => 0 | String c _ => kind c end.

Lemma repr_kind v r : data v = true -> skind (py_repr v ^^ r) = vkind v.
Proof.
  destruct v as [| [] | z | q | s | s | s | l | l | a b]; simpl; try discriminate; auto.
  - intros _. pose proof (numchar_Z z). destruct (repr_Z z) as [|c t] eqn:E;
      [now apply repr_Z_nonempty in E|]. simpl in *.
    apply andb_true_iff in H as [H _].
    destruct c as [[] [] [] [] [] [] [] []]; simpl in H; try discriminate; reflexivity.
  - intros _. unfold repr_str. destruct (_ && _); reflexivity.
  - destruct l as [|x [|y t]]; reflexivity.
Qed.

Definition pre_inj (u : value) : Prop :=
  forall v r1 r2, data u = true -> data v = true -> delim r1 -> delim r2 ->
    py_repr u ^^ r1 = py_repr v ^^ r2 -> u = v /\ r1 = r2.

(** the elements of a container followed by the closing text *)
Fixpoint tail_text (l : list value) (r : string) : string :=
  match l with
  | [] => r
  | x :: t => ", " ^^ (py_repr x ^^ tail_text t r)
  end.

Lemma join_tail x l r :
  join ", " (map py_repr (x :: l)) ^^ r = py_repr x ^^ tail_text l r.
Proof.
  revert x. induction l as [|y l IH]; intros x.
  - simpl. reflexivity.
  - change (join ", " (map py_repr (x :: y :: l)))
      with (py_repr x ^^ (", " ^^ join ", " (map py_repr (y :: l)))).
    rewrite !app_assoc_s, IH. reflexivity.
Qed.

Definition closing (r : string) : Prop :=
  match r with
  | EmptyString => False
  | String c _ => c = "]"%char \/ c = ")"%char
  end.

Lemma closing_delim r : closing r -> delim r.
Proof. destruct r; simpl; tauto. Qed.

Lemma tail_delim l r : closing r -> delim (tail_text l r).
Proof. destruct l; simpl; intros H; [now apply closing_delim|auto]. Qed.

Lemma tail_text_inj l m r1 r2 : Forall pre_inj l ->
  forallb data l = true -> forallb data m = true -> closing r1 -> closing r2 ->
  tail_text l r1 = tail_text m r2 -> l = m /\ r1 = r2.
Proof.
  intros H. revert m. induction H as [|x l Hx Hl IH]; intros [|y m]; simpl;
    intros Dl Dm C1 C2 E.
  - auto.
  - exfalso. destruct r1; simpl in *; [tauto|]. injection E as -> E. destruct C1; discriminate.
  - exfalso. destruct r2; simpl in *; [tauto|]. injection E as <- E. destruct C2; discriminate.
  - injection E as E. apply andb_true_iff in Dl as [Dx Dl]. apply andb_true_iff in Dm as [Dy Dm].
    apply Hx in E as [-> E]; auto using tail_delim.
    destruct (IH m Dl Dm C1 C2 E) as [-> ->]. auto.
Qed.

Lemma list_items_inj l m r1 r2 : Forall pre_inj l ->
  forallb data l = true -> forallb data m = true -> closing r1 -> closing r2 ->
  join ", " (map py_repr l) ^^ r1 = join ", " (map py_repr m) ^^ r2 -> l = m /\ r1 = r2.
Proof.
  intros H Dl Dm C1 C2 E. destruct l as [|x l], m as [|y m].
  - auto.
  - exfalso. rewrite join_tail in E. simpl in E, Dm. apply andb_true_iff in Dm as [Dy Dm].
    apply (f_equal skind) in E. rewrite repr_kind in E by auto.
    destruct r1; simpl in *; [tauto|]. destruct C1 as [-> | ->]; destruct y as [|[]| | | | | | | |]; discriminate.
  - exfalso. rewrite join_tail in E. simpl in E, Dl. apply andb_true_iff in Dl as [Dx Dl].
    apply (f_equal skind) in E. rewrite repr_kind in E by auto.
    destruct r2; simpl in *; [tauto|]. destruct C2 as [-> | ->]; destruct x as [|[]| | | | | | | |]; discriminate.
  - rewrite !join_tail in E. simpl in Dl, Dm.
    apply andb_true_iff in Dl as [Dx Dl]. apply andb_true_iff in Dm as [Dy Dm].
    inversion H; subst. apply H2 in E as [-> E]; auto using tail_delim.
    apply tail_text_inj in E as [-> ->]; auto.
Qed.

(** the text of a tuple after its opening parenthesis *)
Definition tuple_text (l : list value) (r : string) : string :=
  match l with
  | [] => ")" ^^ r
  | [x] => py_repr x ^^ (",)" ^^ r)
  | _ => join ", " (map py_repr l) ^^ (")" ^^ r)
  end.

Lemma tuple_repr l r : py_repr (VTuple l) ^^ r = "(" ^^ tuple_text l r.
Proof.
  destruct l as [|x [|y l]].
  - reflexivity.
  - simpl. rewrite !app_assoc_s. reflexivity.
  - change (py_repr (VTuple (x :: y :: l)))
      with ("(" ^^ (join ", " (map py_repr (x :: y :: l)) ^^ ")")).
    unfold tuple_text. rewrite !app_assoc_s. reflexivity.
Qed.

Lemma tuple_inj l m r1 r2 : Forall pre_inj l ->
  forallb data l = true -> forallb data m = true ->
  tuple_text l r1 = tuple_text m r2 -> l = m /\ r1 = r2.
Proof.
  intros H Dl Dm E.
  assert (K : forall x s t, data x = true -> py_repr x ^^ s = ")" ^^ t -> False).
  { intros x s t Dx F. apply (f_equal skind) in F. rewrite repr_kind in F by auto.
    destruct x as [|[]| | | | | | | |]; discriminate. }
  destruct l as [|x [|x' l]], m as [|y [|y' m]]; unfold tuple_text in E;
    rewrite ?join_tail in E; simpl in Dl, Dm; rewrite ?andb_true_iff in *.
  - injection E; auto.
  - symmetry in E. apply K in E; tauto.
  - symmetry in E. apply K in E; tauto.
  - apply K in E; tauto.
  - inversion H; subst. apply H2 in E; simpl; try tauto.
    destruct E as [-> E]. injection E as ->. auto.
  - exfalso. inversion H; subst. apply H2 in E; simpl; try tauto.
    destruct E as [_ E]. discriminate.
  - apply K in E; tauto.
  - exfalso. inversion H; subst. apply H2 in E; simpl; try tauto.
    destruct E as [_ E]. discriminate.
  - inversion H; subst. apply H2 in E; try tauto; try (apply tail_delim; simpl; auto).
    destruct E as [-> E].
    apply tail_text_inj in E; simpl; rewrite ?andb_true_iff; auto; try tauto.
    destruct E as [E F]. injection F as ->. injection E as -> ->. auto.
Qed.

Lemma repr_pre_inj u : pre_inj u.
Proof.
  unfold pre_inj. induction u using value_ind'; intros v r1 r2 Du Dv D1 D2 E;
    try discriminate;
    pose proof (f_equal skind E) as K; rewrite !repr_kind in K by auto.
  - destruct v as [|[]| | | | | | | |]; try discriminate. simpl in E. injection E; auto.
  - destruct b, v as [|[]| | | | | | | |]; try discriminate; simpl in E; injection E; auto.
  - destruct v as [|[]| | | | | | | |]; try discriminate. simpl in E.
    apply repr_Z_prefix in E as [-> ->]; auto.
  - destruct v as [|[]| | | | | | | |]; try discriminate. simpl in E.
    apply repr_str_prefix in E as [-> ->]; auto.
  - destruct v as [|[]| | | | | |m| |]; try discriminate.
    rewrite !tuple_repr in E. injection E as E.
    apply tuple_inj in E as [-> ->]; auto.
  - destruct v as [|[]| | | | | | |m|]; try discriminate.
    simpl in E. injection E as E. rewrite !app_assoc_s in E.
    apply list_items_inj in E; simpl; auto.
    destruct E as [-> E]. injection E as ->. auto.
Qed.

Lemma repr_injective u v : data u = true -> data v = true -> py_repr u = py_repr v -> u = v.
Proof.
  intros Du Dv E. apply (repr_pre_inj u v "" ""); simpl; auto. now rewrite !app_nil_s.
Qed.

Lemma plain_data v : plain v = true -> data v = true.
Proof.
  induction v using value_ind'; simpl; auto; rewrite !forallb_forall; rewrite Forall_forall in H; auto.
Qed.
