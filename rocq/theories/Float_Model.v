(** IEEE 754 rounding to nearest even on rationals, by the division algorithm
    of Coq's standard library (SpecFloat).  [prec] = 53, [emax] = 1024 for
    Python floats / C++ double, 24 and 128 for C++ float.  Used in concrete
    counterexamples; theorems take an arbitrary rounding function. *)
From Coq Require Import ZArith QArith SpecFloat.

Definition SF2Q (x : spec_float) : option Q :=
  match x with
  | S754_zero _ => Some 0%Q
  | S754_finite sg m e =>
      let z := (if sg then Zneg m else Zpos m) in
      Some (if (0 <=? e)%Z then inject_Z (z * 2 ^ e) else z # Z.to_pos (2 ^ (- e)))
  | _ => None
  end.
(** Rounded value of [q] as a float. *)
Definition round_float (prec emax : Z) (q : Q) : spec_float :=
  match Qnum q with
  | Z0 => S754_zero false
  | Zpos m => let '(mz, ez, lz) := SFdiv_core_binary prec emax (Zpos m) 0 (Zpos (Qden q)) 0 in binary_round_aux prec emax false mz ez lz
  | Zneg m => let '(mz, ez, lz) := SFdiv_core_binary prec emax (Zpos m) 0 (Zpos (Qden q)) 0 in binary_round_aux prec emax true mz ez lz
  end.
(** Rounding to double as a function on rationals (overflow: unchanged). *)
Definition round64 (q : Q) : Q := match SF2Q (round_float 53 1024 q) with Some r => r | None => q end.
Definition round32 (q : Q) : Q := match SF2Q (round_float 24 128 q) with Some r => r | None => q end.
(** std::sqrt on doubles, by the square root of the standard library (NaN and
    infinity: 0, outside the range of the theorems). *)
Definition sqrt64 (q : Q) : Q := match SF2Q (SFsqrt 53 1024 (round_float 53 1024 q)) with Some r => r | None => 0%Q end.
