(** C38, C49: parameter names and the default number of threads.  Only
    statements; the proofs are in PyStr_Proofs.v. *)
From Coq Require Import String.
From Coq Require Import List.
From Verif Require Import Base PyStr_Model PyStr_Spec PyStr_Proofs Ex_PyStr.
From Coq Require Import QArith.
Local Open Scope Z_scope.

(** C38.  A name is accepted exactly when it is a letter or digit followed by
    letters, digits, '-' and '_', or such a name and a newline. *)
Theorem C38_names : forall (digit_value : Z -> option Z) (s : pystr),
  is_valid_param_name digit_value s = true <->
  documented_name digit_value s \/ exists w, s = w ++ [10] /\ documented_name digit_value w.
Proof. exact valid_name. Qed.
Print Assumptions C38_names.
Example C38_names_example :
  is_valid_param_name ascii_table (str "top_k-2"%string) = true /\ is_valid_param_name ascii_table (str "_top"%string) = false /\
  is_valid_param_name ascii_table (str "a b"%string) = false /\ is_valid_param_name ascii_table [] = false /\
  documented_name ascii_table (str "a_"%string).
Proof.
  repeat (split; [reflexivity|]). exists 97, [95]. split; [reflexivity|]. split; [left; left; lia|]. intros x [<-|[]]. auto.
Qed.

(** The documented language excludes the newline; the code accepts it. *)
Theorem C38_newline_refuted : exists s, is_valid_param_name ascii_table s = true /\ ~ documented_name ascii_table s.
Proof.
  exists (str "reg"%string ++ [10]). split; [vm_compute; reflexivity|]. intros (c & w & E & _ & H).
  injection E as <- <-. destruct (H 10) as [[[D|D]|D]|[D|D]]; try lia; [right; right; now left|now apply D].
Qed.
Print Assumptions C38_newline_refuted.
(** Digits of other scripts count as digits. *)
Theorem C38_other_digits_refuted : exists table s, ascii_digits table /\ is_valid_param_name table s = true /\
  exists c, In c s /\ ~ (48 <= c <= 57 \/ 65 <= c <= 90 \/ 97 <= c <= 122 \/ c = 45 \/ c = 95).
Proof.
  exists arabic_table, [97; 1635]. split; [exact arabic_table_ok|]. split; [vm_compute; reflexivity|].
  exists 1635. split; [right; now left|lia].
Qed.
Print Assumptions C38_other_digits_refuted.

(** The range constructors succeed exactly on such names with low <= high and
    raise ValueError otherwise. *)
Theorem C38_ranges : forall (digit_value : Z -> option Z) name low high,
  (forall rg, make_range digit_value name low high = Ok rg <->
    rg = mkRange name low high /\
    (documented_name digit_value name \/ exists w, name = w ++ [10] /\ documented_name digit_value w) /\ (low <= high)%Q) /\
  (make_range digit_value name low high = Fail ValueError \/ exists rg, make_range digit_value name low high = Ok rg).
Proof. intros dv name low high. split; [exact (fun rg => make_range_iff dv name low high rg)|exact (make_range_fails dv name low high)]. Qed.
Print Assumptions C38_ranges.
Example C38_ranges_example :
  make_range ascii_table (str "reg"%string) 1 2 = Ok (mkRange (str "reg"%string) 1 2) /\
  make_range ascii_table (str "reg"%string) 2 1 = Fail ValueError /\ make_range ascii_table (str ""%string) 1 2 = Fail ValueError.
Proof. repeat split; reflexivity. Qed.

(** The check is exponential: before refusing n letters followed by a '!' it
    tries 2^n - 1 ways of splitting them into groups. *)
Theorem C38_backtracking : forall (digit_value : Z -> option Z), ascii_digits digit_value -> forall n : nat,
  length (name_checker digit_value (repeat 97 n ++ [33])) = (2 ^ n - 1)%nat /\
  is_valid_param_name digit_value (repeat 97 n ++ [33]) = false.
Proof. exact backtracking. Qed.
Print Assumptions C38_backtracking.
Example C38_backtracking_example : length (name_checker ascii_table (str "aaaaa!"%string)) = 31%nat.
Proof. reflexivity. Qed.

(** C49.  The argument if given; else the value of the environment variable,
    1 if it is empty, ValueError exactly if it is not an integer literal; else
    the number of CPUs, 1 if that is unknown or 0. *)
Theorem C49_n_threads : forall (digit_value : Z -> option Z) (is_space : Z -> bool) (max_digits : nat),
  ascii_digits digit_value -> ascii_spaces is_space -> (forall c, digit_value c <> None -> is_space c = false) ->
  forall (n_threads : option Z) (env : option pystr) (cpu_count : option Z),
  let r := get_n_threads digit_value is_space max_digits n_threads env cpu_count in
  match n_threads, env with
  | Some n, _ => r = Ok n
  | None, Some s =>
      (s = [] -> r = Ok 1) /\
      (s <> [] -> (forall n, r = Ok n <-> integer_literal digit_value is_space max_digits s n) /\
                  (r = Fail ValueError <-> forall n, ~ integer_literal digit_value is_space max_digits s n))
  | None, None => r = Ok (match cpu_count with Some n => if n =? 0 then 1 else n | None => 1 end)
  end.
Proof. exact n_threads_spec. Qed.
Print Assumptions C49_n_threads.
Example C49_n_threads_example :
  let f := get_n_threads ascii_table ascii_space 4300 in
  f None (Some (str " 1_6 "%string)) (Some 8) = Ok 16 /\ f None (Some (str "four"%string)) (Some 8) = Fail ValueError /\
  f None (Some (str "1__6"%string)) None = Fail ValueError /\ f None (Some (str "-3"%string)) None = Ok (-3) /\
  f None None (Some 8) = Ok 8 /\ f (Some 2) (Some (str "x"%string)) None = Ok 2 /\ f None (Some []) (Some 8) = Ok 1 /\
  integer_literal ascii_table ascii_space 4300 (str " 1_6 "%string) 16.
Proof.
  repeat (split; [reflexivity|]). exists [32], [], [49; 95; 54], [32], [1; 6]. split; [reflexivity|].
  split; [intros c [<-|[]]; reflexivity|]. split; [intros c [<-|[]]; reflexivity|]. split; [|split; [cbn; lia|right; auto]].
  apply grouped_under; [reflexivity|]. now apply grouped_one.
Qed.

(** Zero and negative numbers of threads are passed on unchecked. *)
Theorem C49_positive_refuted : exists s n, get_n_threads ascii_table ascii_space 4300 None (Some s) (Some 8) = Ok n /\ n <= 0.
Proof. exists (str "0"%string), 0. split; [vm_compute; reflexivity|lia]. Qed.
Print Assumptions C49_positive_refuted.
