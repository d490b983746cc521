(** phik.py:249 in binary64 arithmetic; numpy.linalg.inv is whatever it returned. *)
From Coq Require Import ZArith List.
From Flocq Require Import BinarySingleNaN.
From Verif Require Import F64 BrentFModel.

(** np.sqrt *)
Definition fsqrt (x : f64) : f64 := Bsqrt mode_NE x.
(** np.sqrt(1 - 1/(V[i][i] * Vinv[i][i])) *)
Definition gcorr64 (vii wii : f64) : f64 := fsqrt (fminus fone (fdiv fone (fmult vii wii))).
(** the whole array *)
Definition global64 (V Vinv : list (list f64)) : list f64 :=
  map (fun i => gcorr64 (nth i (nth i V nil) fnan) (nth i (nth i Vinv nil) fnan)) (seq 0 (length V)).
