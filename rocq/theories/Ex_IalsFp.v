(** A machine with 32-bit floats and concrete runs used by the examples of
    Prop_IalsFp.v. *)
From Coq Require Import QArith SpecFloat.
From Verif Require Import Base Sched_Model Float_Model IalsFp_Model IalsFp_Spec.
Local Open Scope nat_scope.

Definition f32 := spec_float.
Definition fq (q : Q) : f32 := round_float 24 128 q.
Definition fadd := SFadd 24 128.
Definition fmul := SFmul 24 128.
Definition fdiv := SFdiv 24 128.
Definition fsqrt := SFsqrt 24 128.
Definition f0 : f32 := S754_zero false.
Definition f1 : f32 := fq 1.
Definition fin (x : f32) : bool := match x with S754_zero _ | S754_finite _ _ _ => true | _ => false end.

(** K = 1.  Sums from left to right, no fused operations; alpha0 = 1, reg = 1,
    the original loss; the numbers of the generator replaced by a formula. *)
Definition hd1 (x : list f32) : f32 := hd f0 x.
Definition ex_gram (B : list (list f32)) : f32 := fold_left (fun a x => fadd a (fmul (hd1 x) (hd1 x))) B f0.
Definition ex_row (V : list (list f32)) (e : nat * f32) : f32 := hd1 (nth (fst e) V []).
Definition ex_chol (V : list (list f32)) (P : f32) (x : list (nat * f32)) : outcome (list f32) :=
  let A := fold_left (fun a e => fadd a (fmul (snd e) (fmul (ex_row V e) (ex_row V e)))) x P in
  let B := fold_left (fun a e => fadd a (fmul (fadd f1 (snd e)) (ex_row V e))) x f0 in
  let L := fsqrt (fadd A f1) in
  let s := fdiv (fdiv B L) L in
  if fin s then Ok [s] else Fail RuntimeError.
Definition ex_draw (seed : Z) (stdev : Q) (cols i : nat) : f32 :=
  fq (stdev * (((Z.of_nat (i * i * 5 + i * 3) + seed) mod 41 - 20) # 10)).
Definition ex_machine : machine :=
  mkMachine f32 f0 f32 f0 ex_gram fadd (fun P => P) ex_chol
    (fun _ V P x _ => ex_chol V P x)
    (fun V x u => map (fun e => fmul (hd1 u) (ex_row V e)) x)
    (fun _ _ V P x _ s => (match ex_chol V P x with Ok r => r | _ => [] end, snd s))
    (fun _ V P x _ s => (match ex_chol V P x with Ok r => r | _ => [] end, snd s))
    ex_draw
    (fun U V => map (fun u => map (fun v => fmul (hd1 u) (hd1 v)) V) U).

(** 1 user, 48 items: three blocks of the Gram matrix. *)
Definition ex_data : data ex_machine :=
  mkData ex_machine [[(0, f1); (5, f1); (20, f1)]]
    (map (fun i => if existsb (Nat.eqb i) [0; 5; 20] then [(0, f1)] else []) (seq 0 48)).
Definition ex_conf (nt : nat) : config := mkConfig 1 28 1 nt Cholesky 3 1 64.

(** Two workers: the first takes everything, or the second one takes block 1. *)
Definition sched_a : list nat := repeat 0 (3 * 17 + 1) ++ [1].
Definition sched_b : list nat := repeat 0 17 ++ repeat 1 17 ++ repeat 0 18 ++ [1].
Definition rr (n nt : nat) : list nat := concat (repeat (seq 0 nt) (3 * n + 1)).
Definition ex_epoch (sp : list nat) : epoch_schedules :=
  mkSchedules sp (fun _ _ => rr 1 2) (rr 1 2) (fun _ _ => rr 48 2).
Definition ex_start nt : trainer ex_machine := new_trainer ex_machine (ex_conf nt) ex_data ([], []).
(** One worker, with a schedule that names workers that do not exist. *)
Definition sched_1 (n : nat) : list nat := repeat 0 (3 * n + 1).
Definition ex_epoch_1 : epoch_schedules := mkSchedules (sched_1 48) (fun _ _ => sched_1 1) (sched_1 1) (fun _ _ => sched_1 48).
Definition ex_epoch_1' : epoch_schedules :=
  mkSchedules (rr 48 2) (fun _ _ => [7; 1; 0; 0; 0; 0]) (sched_1 1) (fun a b => rr (48 + a + b) 3).

(** Sums of integers are exact. *)
Definition ex_exact : machine :=
  mkMachine Z 0%Z Z 0%Z (fun B => fold_left Z.add (map (fun x => hd 0 x * hd 0 x)%Z B) 0%Z) Z.add (fun P => P)
    (fun V P x => Ok [(P + fold_left Z.add (map (fun e => snd e * hd 0 (nth (fst e) V [])) x) 0)%Z])
    (fun k V P x r => Ok [(P + hd 0 r)%Z])
    (fun V x u => map (fun e => hd 0 u * hd 0 (nth (fst e) V []))%Z x)
    (fun _ _ V P x r s => ([(P + hd 0 (fst s) + fold_left Z.add (snd s) 0)%Z], snd s))
    (fun _ V P x r s => ([(P - hd 0 (fst s) + fold_left Z.add (snd s) 0)%Z], snd s))
    (fun seed _ _ i => ((seed + Z.of_nat i) mod 3)%Z)
    (fun U V => map (fun u => map (fun v => hd 0 u * hd 0 v)%Z V) U).
Lemma ex_exact_ok : exact_sums ex_exact.
Proof. constructor; cbn; intros; lia. Qed.
Definition ex_data_z : data ex_exact :=
  mkData ex_exact [[(0, 1%Z); (20, 3%Z)]; [(3, 2%Z)]] (map (fun i => if i =? 3 then [(1, 2%Z)] else []) (seq 0 40)).
Definition ex_conf_z (s : solver) (nt : nat) : config := mkConfig 1 5 1 nt s 3 2 1.
Definition ex_epoch_z (nt : nat) : epoch_schedules := mkSchedules (rr 40 nt) (fun _ _ => rr 2 nt) (rr 2 nt) (fun _ _ => rr 40 nt).

(** Comparison of two runs, without writing out a machine. *)
Definition mantissa (x : f32) : positive := match x with S754_finite _ m _ => m | _ => 1%positive end.
Definition user0 (t : trainer ex_machine) : f32 := hd1 (hd [] (t_user ex_machine t)).
Definition differ (o o' : outcome (trainer ex_machine)) : bool :=
  match o, o' with Ok t, Ok t' => negb (Pos.eqb (mantissa (user0 t)) (mantissa (user0 t'))) | _, _ => false end.
Lemma differ_ok o o' : differ o o' = true -> exists t t', o = Ok t /\ o' = Ok t' /\ t_user ex_machine t <> t_user ex_machine t'.
Proof.
  destruct o as [t|e| |], o' as [t'|e'| |]; cbn; try discriminate. intros H. exists t, t'. split; [reflexivity|]. split; [reflexivity|].
  intros E. unfold user0 in H. rewrite E, Pos.eqb_refl in H. discriminate.
Qed.
