(** Model of /repo/src/theia/math/reservoir_sampler.h.  The counter of added elements is unbounded. *)
From stdpp Require Import prelude.
From Verif Require Import Base Sampling_Model.
Open Scope Z_scope.

Section Reservoir.
  Context {E : Type}.

  (** reservoir_sampler.h:91-100, the data members; the generator is a stream of random numbers. *)
  Record reservoir := Reservoir { rv_k : Z; rv_added : Z; rv_rng : stream; rv_samples : list E }.

  (** reservoir_sampler.h:57-61, the constructor; reserve() of a negative number throws std::length_error, which
      ends the program. *)
  Definition rv_new (k : Z) (r : stream) : outcome reservoir :=
    if decide (0 <= k) then Ok (Reservoir k 0 r []) else CheckFail.

  (** reservoir_sampler.h:66-84, AddElementToSampler. *)
  Definition rv_add (s : reservoir) (e : E) : outcome reservoir :=
    if decide (rv_added s < rv_k s)
    then Ok (Reservoir (rv_k s) (rv_added s + 1) (rv_rng s) (rv_samples s ++ [e]))
    else
      '(p, r) ← rand_int 0 (rv_added s) (rv_rng s);
      samples ← (if decide (p < rv_k s)
                 then _ ← or_ub (rv_samples s !! Z.to_nat p); Ok (<[Z.to_nat p := e]> (rv_samples s))
                 else Ok (rv_samples s));
      Ok (Reservoir (rv_k s) (rv_added s + 1) r samples).
End Reservoir.
Arguments reservoir : clear implicits.
