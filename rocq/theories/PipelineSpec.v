(** * What the blocks of a pipeline promise, without reference to how they do it *)

From Coq Require Import String List Bool Arith.
From Verif Require Import Py Effects Pipeline.
Import ListNotations.
Local Open Scope string_scope.
Local Open Scope list_scope.

Section Spec.
  Context {W P : Type}.
  Notation block := (@block W P).
  Notation state := (@st W P).
  Notation runs_block := (M state bresult).

  Definition ids (bs : list block) : list nat := map (fun b => p_id (b_proc b)) bs.

  (** the current products of some processors *)
  Definition currents (ks : list nat) (r : request P) : list (option P) := map (fun k => get_current k r) ks.

  (** ** Pure processors: the result depends on the text and the current
      products of the earlier processors only *)
  Definition pure_fun : Type := string -> list P -> presult P.

  (** the products, none when there is an error *)
  Definition offered (f : pure_fun) (t : string) (c : list P) : list P :=
    if String.eqb (pr_error (f t c)) "" then pr_products (f t c) else [].

  (** [can t c] holds when the earlier processors can have the products [c]
      for the text [t] *)
  Fixpoint pure_after (can : string -> list P -> Prop) (before : list nat) (bs : list block) (fs : list pure_fun) : Prop :=
    match bs, fs with
    | [], [] => True
    | b :: bs', f :: fs' =>
        (forall r w c, can (rq_text r) c -> currents before r = map Some c ->
           p_process (b_proc b) r w = (Ok (f (rq_text r) c), w)) /\ pure_after (fun t c' => exists c x, c' = c ++ [x] /\ can t c /\ In x (offered f t c))
                   (before ++ [p_id (b_proc b)]) bs' fs'
    | _, _ => False
    end.
  Definition pure_pipeline : list block -> list pure_fun -> Prop := pure_after (fun _ c => c = []) [].

  (** [ch] picks one product of each processor, and no processor fails *)
  Fixpoint survives (t : string) (fs : list pure_fun) (c ch : list P) : Prop :=
    match fs, ch with
    | [], [] => True
    | f :: fs', x :: ch' =>
        pr_error (f t c) = "" /\ In x (pr_products (f t c)) /\ survives t fs' (c ++ [x]) ch'
    | _, _ => False
    end.

  (** ... and no choice that is tried earlier survives *)
  Fixpoint first_survivor (t : string) (fs : list pure_fun) (c ch : list P) : Prop :=
    match fs, ch with
    | [], [] => True
    | f :: fs', x :: ch' =>
        pr_error (f t c) = "" /\
        (exists l1 l2, pr_products (f t c) = l1 ++ x :: l2 /\
                       forall y rest, In y l1 -> ~ survives t fs' (c ++ [y]) rest) /\
        first_survivor t fs' (c ++ [x]) ch'
    | _, _ => False
    end.

  (** a processor that reports no error has a product *)
  Definition productive (f : pure_fun) : Prop :=
    forall t c, pr_error (f t c) = "" -> pr_products (f t c) <> [].

  (** all ways to choose products of the given processors, in order *)
  Fixpoint choices (t : string) (fs : list pure_fun) (c : list P) : list (list P) :=
    match fs with
    | [] => [c]
    | f :: fs' => flat_map (fun x => choices t fs' (c ++ [x])) (offered f t c)
    end.

  (** ** Arbitrary processors: the rest of the pipeline is run for each of the
      products in turn, with results [rs] *)
  Inductive tried (next : runs_block) (k : nat) : list P -> list bresult -> state -> state -> Prop :=
  | tried_nil s : tried next k [] [] s s
  | tried_cons x l r rs w q s1 s' :
      next (w, set_current k x q) = (Ok r, s1) ->
      tried next k l rs s1 s' ->
      tried next k (x :: l) (r :: rs) (w, q) s'.

  Definition succeeded (r : bresult) : Prop := br_error r = "".

  (** the first of [rs] that failed *)
  Definition first_error (rs : list bresult) (e : bresult) : Prop :=
    exists l1 l2, rs = l1 ++ e :: l2 /\ ~ succeeded e /\ Forall succeeded l1.
End Spec.
