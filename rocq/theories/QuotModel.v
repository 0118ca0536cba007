(** Quotients of whole numbers as Python computes them: [a / b] is the binary64
    number nearest to the quotient.  [RunnerModel.chunk_size_of] and
    [AnalyzerModel.plot_interval] use exact quotients instead; C115 compares them. *)
From Flocq Require Import Core BinarySingleNaN.
From Verif Require Import Prelude FloatArith.
Local Open Scope Z_scope.

(** [a / b] for integers that are exact as floats (below 2^53), [b] not zero.
    core/runner/synchronous_runner.py:62, discrete/discrete_state_result_analyzer.py:115 *)
Definition py_div (a b : Z) : b64 := f_div (f_ofZ a) (f_ofZ b).

(** core/runner/synchronous_runner.py:62 [math.ceil(num_sites / PROCESSES)] *)
Definition chunk_size_float (n p : Z) : res Z :=
  if p =? 0 then Err ZeroDivisionError else Ok (Btrunc (Bnearbyint mode_UP (py_div n p))).

(** discrete/discrete_state_result_analyzer.py:114-115
    [max(1, round(len(self._result) / min(100, len(self._result))))]; a result has at
    least one step, so the divisor is positive. *)
Definition plot_interval_float (len : Z) : Z :=
  let num_points := Z.min 100 len in
  Z.max 1 (Btrunc (f_rint (py_div len num_points))).

(** visualization/square_grid_artist_3D.py:17 [round(state.size ** (1 / 3))]; [pow]
    is the C library's power function, a parameter. *)
Definition cube_root_float (pow : b64 -> b64 -> b64) (n : Z) : Z :=
  Btrunc (f_rint (pow (f_ofZ n) (py_div 1 3))).
