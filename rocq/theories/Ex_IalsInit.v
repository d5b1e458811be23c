(** Arguments for IALSRecommender for the examples. *)
From Coq Require Import String.
From Verif Require Import Base.
From Verif Require PyStr_Model.
From mathcomp Require Import all_ssreflect all_algebra.
From Verif Require Import Ials_Model Ials_Spec IalsInit_Model Ex_Ials.
Set Implicit Arguments.
Unset Strict Implicit.
Unset Printing Implicit Defensive.
Local Open Scope ring_scope.
Notation pstr l := (PyStr_Model.str l%string).

(** str.upper on ASCII *)
Definition ascii_upper (s : pystr) : pystr :=
  List.map (fun c => if (Z.leb 97 c && Z.leb c 122)%bool then Z.sub c 32 else c) s.

Section Ex.
Variable F : realFieldType.
(** The powers with exponents 0 and 1 *)
Definition pow01 (b e : F) : F := if e == 0 then 1 else b.
(** Zero at one and strictly increasing *)
Definition log_ex (x : F) : F := x - 1.
(** alpha0 = 1, reg = 1/3, nu = 1 with the strength given for nu_star = 0 *)
Definition args_of (al : F) (scaling solver : String.string) (eps : F) (ns : option F) : ials_args F :=
  IalsArgs al 3%:R^-1 1 (pstr scaling) eps (pstr solver) 3 64 (pstr "IALSPP") ns 2 1 1 1 0.
Definition args_1 := args_of 1 "none" "cholesky" 1 (Some 0).
Definition args_log := args_of 1 "log" "CG" 2%:R None.
End Ex.
Arguments pow01 {F}. Arguments log_ex {F}. Arguments args_of {F}. Arguments args_1 {F}. Arguments args_log {F}.
