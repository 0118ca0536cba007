(** Property C115: quotients and cube roots of whole numbers. *)
From Coq Require Import Reals.
From Flocq Require Import Core BinarySingleNaN.
From Verif Require Import Prelude FloatArith SpecFloat64 RunnerModel AnalyzerModel QuotModel SpecQuot QuotFacts.
Local Open Scope Z_scope.

(** C115. math.ceil(num_sites / PROCESSES) is the exact quotient rounded up, and what the model of the parallel runner uses. *)
Theorem C115_chunk_float : forall n p, 0 <= n < 2 ^ 53 -> 1 <= p < 2 ^ 53 ->
  exists c, chunk_size_float n p = Ok c /\ (c - 1) * p < n <= c * p /\ chunk_size_of n p = Ok c.
Proof. exact C115_chunk_lemma. Qed.
Print Assumptions C115_chunk_float.
Example C115_chunk_example : chunk_size_float 25 4 = Ok 7 /\ chunk_size_float 24 4 = Ok 6 /\ chunk_size_float 0 4 = Ok 0.
Proof. vm_compute. auto. Qed.

(** C115. The spacing of the plotted steps is the exact quotient rounded to nearest, ties to even, and what the model of the analyzer uses. *)
Theorem C115_interval_float : forall len, 1 <= len < 2 ^ 52 ->
  exists k, plot_interval_float len = k /\ plot_interval len = k /\ 1 <= k /\
    (len <= 100 -> k = 1) /\ (100 <= len -> Z.abs (len - 100 * k) <= 50 /\ (Z.abs (len - 100 * k) = 50 -> Z.even k = true)).
Proof. exact C115_interval_lemma. Qed.
Print Assumptions C115_interval_float.
Example C115_interval_example : plot_interval_float 250 = 2 /\ plot_interval_float 350 = 4 /\ plot_interval_float 251 = 3 /\ plot_interval_float 7 = 1.
Proof. vm_compute. auto. Qed.

(** C115. round(state.size ** (1/3)) is the side of a cube, whatever power function is used, if it is accurate to one part in 2^20. *)
Theorem C115_cube_root : forall pow n, 1 <= n <= 2 ^ 17 -> fair_power pow (n ^ 3) -> cube_root_float pow (n ^ 3) = n.
Proof. exact C115_cube_lemma. Qed.
Print Assumptions C115_cube_root.
Example C115_cube_example : fair_power (fun _ _ => f_ofZ 3) 27 /\ cube_root_float (fun _ _ => f_ofZ 3) (3 ^ 3) = 3.
Proof. split; [exact fair_27|vm_compute; reflexivity]. Qed.
