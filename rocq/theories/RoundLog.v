(** * The encoding of an integer variable with a logarithm that is rounded
    integer_to_binary.py:103-111 calls [np.log2] on floats.  Here it is any function from reals to reals, and what a
    particular one must satisfy is said where it is used.

    Simplification: bounds are integers and every other number is exact. *)
From Coq Require Import Reals.
Require Import Verif.Conv.

(** [int(x)] of a float: truncation towards zero; integer_to_binary.py:107 *)
Definition truncate (x : R) : Z := if Rle_dec 0 x then Int_part x else (- Int_part (- x))%Z.

(** The power, integer_to_binary.py:106-107 *)
Definition rounded_power (lg : R -> R) (lb ub : Z) : Z := truncate (lg (IZR (ub - lb))).

(** _convert_var, integer_to_binary.py:103-111 *)
Definition convert_rounded (lg : R -> R) (name : string) (lb ub : Z) : list (string * Qc) :=
  let co := enc_coeffs (rounded_power lg lb ub) (qz ub - qz lb)%Qc in
  map (fun ic => ((name ++ "@" ++ str_nat (fst ic))%string, snd ic)) (combine (seq 0 (length co)) co).
