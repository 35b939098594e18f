(** Shared definitions: the outcome of running a piece of C++ code.

    - [Ok a]      : the call returned [a];
    - [CheckFail] : a glog CHECK failed, the process aborts
                    (/repo/src/theia/util/map_util.h:79-224 and every CHECK in the sources);
    - [UB]        : undefined behaviour (null dereference, out-of-range access, ...);
    - [Hang]      : the model's recursion budget ran out (possible non-termination).

    A theorem that concludes [... = Ok _] rules out the three others. *)
From stdpp Require Import prelude.

Inductive outcome (A : Type) : Type :=
| Ok (a : A)
| CheckFail
| UB
| Hang.
Arguments Ok {A} a.
Arguments CheckFail {A}.
Arguments UB {A}.
Arguments Hang {A}.

Global Instance outcome_ret : MRet outcome := fun A a => Ok a.
Global Instance outcome_bind : MBind outcome := fun A B f x =>
  match x with
  | Ok a => f a
  | CheckFail => CheckFail
  | UB => UB
  | Hang => Hang
  end.
Global Instance outcome_fmap : FMap outcome := fun A B f x =>
  match x with
  | Ok a => Ok (f a)
  | CheckFail => CheckFail
  | UB => UB
  | Hang => Hang
  end.

(** [FindOrDie] (/repo/src/theia/util/map_util.h:91-108): abort when the key is missing. *)
Definition or_die {A} (x : option A) : outcome A :=
  match x with Some a => Ok a | None => CheckFail end.

(** Dereferencing a pointer that may be null. *)
Definition or_ub {A} (x : option A) : outcome A :=
  match x with Some a => Ok a | None => UB end.

(** CHECK(b). *)
Definition check (b : bool) : outcome unit := if b then Ok tt else CheckFail.

(** An iteration order of an unordered container: for every list of elements some permutation of it.
    Quantifying over all [order]s covers every order the C++ library may choose. *)
Record order (A : Type) := Order {
  ord_list :> list A -> list A;
  ord_perm : forall l, ord_list l ≡ₚ l
}.
Arguments Order {A} _ _.
Arguments ord_list {A} _ _.
Arguments ord_perm {A} _ _.

(** Two sample orders, for examples. *)
Definition ord_id {A} : order A := Order (fun l => l) (fun l => Permutation_refl l).
Definition ord_rev {A} : order A := Order (@reverse A) (@reverse_Permutation A).

(** Run a step function over a list of inputs, collecting the state. *)
Fixpoint run_steps {S O : Type} (step : S -> O -> outcome S) (s : S) (l : list O)
  : outcome S :=
  match l with
  | [] => Ok s
  | o :: l' => s' ← step s o; run_steps step s' l'
  end.

(** Run a step function over a list of inputs, collecting the state and the results. *)
Fixpoint run_obs {S O R : Type} (step : S -> O -> outcome (S * R)) (s : S) (l : list O)
  : outcome (S * list R) :=
  match l with
  | [] => Ok (s, [])
  | o :: l' =>
      '(s', r) ← step s o;
      '(s'', rs) ← run_obs step s' l';
      Ok (s'', r :: rs)
  end.

Lemma bind_Ok {A B} (x : outcome A) (f : A -> outcome B) b :
  x ≫= f = Ok b -> exists a, x = Ok a /\ f a = Ok b.
Proof. destruct x; simpl; intros H; try discriminate. eauto. Qed.

Lemma or_die_Ok {A} (x : option A) a : or_die x = Ok a <-> x = Some a.
Proof. destruct x; simpl; split; congruence. Qed.

Lemma or_ub_Ok {A} (x : option A) a : or_ub x = Ok a <-> x = Some a.
Proof. destruct x; simpl; split; congruence. Qed.

Lemma run_steps_app {S O} (step : S -> O -> outcome S) s l1 l2 :
  run_steps step s (l1 ++ l2) = s' ← run_steps step s l1; run_steps step s' l2.
Proof.
  revert s. induction l1 as [|o l1 IH]; intros s; simpl; [done|].
  destruct (step s o); simpl; auto.
Qed.

Lemma run_steps_inv {S O} (step : S -> O -> outcome S) (P : S -> Prop) (l : list O) :
  (forall s o s', P s -> o ∈ l -> step s o = Ok s' -> P s') ->
  forall s s', P s -> run_steps step s l = Ok s' -> P s'.
Proof.
  induction l as [|o l IH]; intros Hstep s s' HP; simpl.
  - by intros [= <-].
  - intros (s1 & H1 & H2)%bind_Ok. eapply IH; [| |exact H2].
    + intros; eapply Hstep; eauto. by right.
    + eapply Hstep; eauto. by left.
Qed.
