(** * Property C48, continued: the settings of a logger *)

From Coq Require Import ZArith String List Bool Arith Lia.
From Verif Require Import Py Effects Logger PropLogger.
Import ListNotations.
Local Open Scope string_scope.
Local Open Scope list_scope.

(** calls of [log_all_tests], [log_only_last_test] and [log_no_tests], of
    [log_products] and of the dialog tester that says whether this is the last
    test *)
Inductive setting : Type := Tests (t : tests_logged) | Products (processors : list nat) | Last (b : bool).
Definition apply_setting (lg : logger) (s : setting) : logger :=
  match s with Tests t => log_tests t lg | Products ps => log_products ps lg | Last b => set_last b lg end.

(** the latest setting of its kind *)
Inductive latest {A} (kind : A -> setting) (a : A) : list setting -> Prop :=
| latest_last h : latest kind a (h ++ [kind a])
| latest_before h s : latest kind a h -> (forall a', s <> kind a') -> latest kind a (h ++ [s]).
Definition no_setting {A} (kind : A -> setting) (h : list setting) : Prop := forall a, ~ In (kind a) h.

Lemma latest_snoc {A} (kind : A -> setting) a h s :
  latest kind a (h ++ [s]) <-> s = kind a \/ (latest kind a h /\ forall a', s <> kind a').
Proof.
  split.
  - intros H. inversion H as [h' E|h' s' Ha H1 E]; apply app_inj_tail in E as [-> ->]; auto.
  - intros [-> | (H1 & H2)]; [apply latest_last|now apply latest_before].
Qed.
Lemma latest_nil {A} (kind : A -> setting) a : ~ latest kind a [].
Proof. intros H. inversion H; destruct h; discriminate. Qed.
Lemma none_snoc {A} (kind : A -> setting) h s : no_setting kind (h ++ [s]) <-> no_setting kind h /\ forall a, s <> kind a.
Proof.
  unfold no_setting. split.
  - intros H. split; intros a Ha; apply (H a); apply in_or_app; [now left|right; now left].
  - intros [H1 H2] a Ha. apply in_app_or in Ha as [Ha|[Ha|[]]]; [now apply (H1 a)|now apply (H2 a)].
Qed.

(** Of each kind of setting the latest call counts; a new logger is set to the
    last test only, without products.  So a result is shown exactly when the
    test is logged, products are asked for, and its processor is one of those
    named in the latest call, or none was named there.  Settings change no
    entry. *)
Theorem C48_the_latest_settings_count :
  forall h, let lg := fold_left apply_setting h new_logger in
    (forall k, shown lg k <->
      (latest Tests LogAll h \/ ((latest Tests LogLast h \/ no_setting Tests h) /\ latest Last true h)) /\
      exists ps, latest Products ps h /\ (ps = [] \/ In k ps)) /\
    lg_entries lg = [].
Proof.
  intros h. cbv zeta. set (lg := fold_left apply_setting h new_logger).
  assert (G : (forall t, lg_which lg = t <-> latest Tests t h \/ (t = LogLast /\ no_setting Tests h)) /\
              (lg_last lg = true <-> latest Last true h) /\
              (forall ps, lg_products lg = true /\ lg_processors lg = ps <-> latest Products ps h) /\
              lg_entries lg = []).
  { subst lg. induction h as [|s h IH] using rev_ind.
    - cbn [fold_left new_logger lg_which lg_last lg_products lg_processors lg_entries]. repeat split.
      + intros <-. right. split; [reflexivity|]. intros a [].
      + intros [H|[-> _]]; [now apply latest_nil in H|reflexivity].
      + discriminate.
      + intros H. now apply latest_nil in H.
      + intros [[=] _].
      + now apply latest_nil in H.
      + now apply latest_nil in H.
    - rewrite fold_left_app. cbn [fold_left]. set (lg := fold_left apply_setting h new_logger) in *.
      destruct IH as (I1 & I2 & I3 & I4). destruct s as [t|ps|b];
        cbn [apply_setting log_tests log_products set_last lg_which lg_last lg_products lg_processors lg_entries];
        (split; [|split; [|split; [|exact I4]]]).
      + intros t'. rewrite latest_snoc, none_snoc. split; [intros ->; auto|].
        intros [[[=]|[_ H]]|(_ & _ & H)]; [assumption|now destruct (H t)|now destruct (H t)].
      + rewrite latest_snoc, I2. split; [intros H; right; split; [exact H|discriminate]|intros [[=]|[H _]]; exact H].
      + intros ps. rewrite latest_snoc, I3. split; [intros H; right; split; [exact H|discriminate]|intros [[=]|[H _]]; exact H].
      + intros t'. rewrite latest_snoc, none_snoc, I1. split.
        * intros [H|[H1 H2]]; [left; right; split; [exact H|discriminate]|right; repeat split; [exact H1|exact H2|discriminate]].
        * intros [[[=]|[H _]]|(H1 & H2 & _)]; auto.
      + rewrite latest_snoc, I2. split; [intros H; right; split; [exact H|discriminate]|intros [[=]|[H _]]; exact H].
      + intros ps'. rewrite latest_snoc. split; [intros [_ ->]; now left|]. intros [[=]|[_ H]]; [auto|now destruct (H ps)].
      + intros t'. rewrite latest_snoc, none_snoc, I1. split.
        * intros [H|[H1 H2]]; [left; right; split; [exact H|discriminate]|right; repeat split; [exact H1|exact H2|discriminate]].
        * intros [[[=]|[H _]]|(H1 & H2 & _)]; auto.
      + rewrite latest_snoc. split; [intros ->; now left|]. intros [[=]|[_ H]]; [assumption|now destruct (H b)].
      + intros ps. rewrite latest_snoc, I3. split; [intros H; right; split; [exact H|discriminate]|intros [[=]|[H _]]; exact H]. }
  destruct G as (G1 & G2 & G3 & G4). split; [|exact G4]. intros k. unfold shown. split.
  - intros (HW & HP & HK). split.
    + destruct HW as [HW|[HW HL]].
      * apply G1 in HW as [HW|[[=] _]]. now left.
      * right. split; [|now apply G2]. apply G1 in HW as [HW|[_ HW]]; auto.
    + exists (lg_processors lg). split; [now apply G3|exact HK].
  - intros (HW & ps & HP & HK). apply G3 in HP as [HP <-]. split; [|auto]. destruct HW as [HW|[HW HL]].
    + left. apply G1. now left.
    + right. split; [|now apply G2]. apply G1. destruct HW; auto.
Qed.
Print Assumptions C48_the_latest_settings_count.

Example C48_settings_example :
  shown (fold_left apply_setting [Products [1]; Tests LogNone; Tests LogAll; Products [2; 3]] new_logger) 2 /\
  ~ shown (fold_left apply_setting [Products [1]; Tests LogNone; Tests LogAll; Products [2; 3]] new_logger) 1 /\
  ~ shown (fold_left apply_setting [Products []] new_logger) 1 /\
  shown (fold_left apply_setting [Products []; Last true] new_logger) 1.
Proof.
  unfold shown. cbn. split; [auto|]. split; [intros (_ & _ & [[=]|H]); intuition discriminate|].
  split; [intros ([[=]|[_ [=]]] & _)|auto].
Qed.
