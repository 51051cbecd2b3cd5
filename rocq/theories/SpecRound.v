(** * Specification: rounded logarithms, and coefficients that give exactly the integers of a range *)
From Coq Require Import Reals QArith Qcanon List ZArith.
Local Open Scope R_scope.

(** The logarithm to base 2 *)
Definition lb2 (x : R) : R := ln x / ln 2.

(** A logarithm with a relative error of at most [e], and none at powers of two *)
Definition accurate (e : R) (lg : R -> R) : Prop :=
  (forall x, 1 <= x -> Rabs (lg x - lb2 x) <= e * lb2 x) /\ (forall k : nat, lg (2 ^ k) = INR k).

(** A logarithm that, where the result lies between 32 and 64, gives the nearest double: the doubles there are the multiples of 2^-47. *)
Definition nearest_double (lg : R -> R) : Prop :=
  forall x, 32 <= lb2 x <= 64 -> (exists n : Z, lg x = IZR n / 2 ^ 47) /\ forall n : Z, Rabs (lg x - lb2 x) <= Rabs (IZR n / 2 ^ 47 - lb2 x).

(** What bits stand for, written without any notion of the model *)
Fixpoint weighed (bs : list bool) (cs : list Qc) : Qc :=
  match bs, cs with
  | b :: bs', c :: cs' => ((if b then c else 0) + weighed bs' cs')%Qc
  | _, _ => 0%Qc
  end.

(** The coefficients give the integers from 0 to [r], all of them, and nothing else. *)
Definition covers (cs : list Qc) (r : Z) : Prop :=
  forall a : Qc, (exists bs, length bs = length cs /\ weighed bs cs = a) <-> (exists z : Z, (0 <= z <= r)%Z /\ a = Q2Qc (inject_Z z)).
