(** Model of phik/simulation.py.
    The global numpy random state is an abstract type [S]; [multinomial] and [randint] are numpy's functions on it; the compiled
    extension is the model of asa159.cpp.  Simulated tables are matrices of whole numbers.  numba's jit does not change results. *)
From Coq Require Import String ZArith List Bool Reals.
From Flocq Require Import Core.
Import ListNotations.
From Verif Require Import F64 Base RSum StatsModel SpecRcont RcontModel.
Open Scope list_scope.

Section Sim.
Variable S : Type.
Variable multinomial : Z -> list R -> S -> res (list Z) * S.
Variable randint : Z -> Z -> S -> Z * S.
Variables (libm_exp libm_log : f64 -> f64).
(** content of freshly allocated memory, uninitialised local variable, bound on the passes of the inner loop *)
Variables (uninit : nat -> list Z) (ib0 : Z) (fuel : nat).
(** was the compiled extension found? (simulation.py:22-26) *)
Variable CPP_SUPPORT : bool.

Definition M (A : Type) := S -> res A * S.
Definition ret {A} (a : A) : M A := fun s => (Ok a, s).
Definition mraise {A} (e : exn) : M A := fun s => (Raise e, s).
Definition mbind {A B} (m : M A) (f : A -> M B) : M B := fun s => match m s with (Ok a, s') => f a s' | (Raise e, s') => (Raise e, s') end.
Definition lift {A} (r : res A) : M A := fun s => (r, s).
Fixpoint mmap {A B} (f : A -> M B) (l : list A) : M (list B) :=
  match l with [] => ret [] | a :: l' => mbind (f a) (fun b => mbind (mmap f l') (fun bs => ret (b :: bs))) end.

(** row-major content of a table, and back *)
Definition row (m : mat) (i : nat) : list R := map (fun j => el m i j) (seq 0 (nc m)).
Definition ravel (m : mat) : list R := flat_map (row m) (seq 0 (nr m)).
Definition reshape (r c : nat) (l : list Z) : mat := mkMat r c (fun i j => IZR (nth (i * c + j) l 0%Z)).

(** simulation.py:42-65 [sim_2d_data] on a flattened array; a zero total with ndata > 0 gives NaN probabilities, which numpy
    rejects with ValueError; numpy truncates a non-integer number of trials *)
Definition sim_flat (hist : list R) (ndata : Z) : M (list Z) :=
  let total := lsum (fun x => x) hist in
  let n := if (ndata <=? 0)%Z then total else IZR ndata in
  if rleb n 0 then mraise ValueError
  else if reqb total 0 then mraise ValueError
  else multinomial (Ztrunc n) (map (fun x => (x / total)%R) hist).
Definition sim_2d_data (hist : mat) (ndata : Z) : M mat :=
  mbind (sim_flat (ravel hist) ndata) (fun l => ret (reshape (nr hist) (nc hist) l)).

(** numpy's float -> int32 cast *)
Definition to_int32 (z : Z) : Z := ((z + 2 ^ 31) mod 2 ^ 32 - 2 ^ 31)%Z.
Definition NUMPY_INT_MAX : Z := 2147483646.
(** simulation.hpp:24-46 and pybind11's conversion of the seed to int *)
Definition call_patefield (nrow ncol : nat) (rt ct : list Z) (seed : Z) : res (list Z) :=
  if (int_min <=? seed)%Z && (seed <=? int_max)%Z then
    match rcont2 libm_exp libm_log fuel ib0 nrow ncol rt ct seed (uninit (nrow * ncol)) with
    | COk (mt, _) => Ok mt
    | CErr (IErr _) => Raise RuntimeError
    | CErr _ => Raise UndefinedBehaviour
    end
  else Raise TypeError.
(** simulation.py:68-108 [sim_2d_data_patefield] *)
Definition sim_2d_data_patefield (data : mat) (seed : option Z) : M mat :=
  if negb CPP_SUPPORT then mraise NotImplementedError
  else
    let nrowt := map (fun i => to_int32 (ZnearestE (rowsum data i))) (seq 0 (nr data)) in
    let ncolt := map (fun j => to_int32 (ZnearestE (colsum data j))) (seq 0 (nc data)) in
    let go sd := lift (rmap (reshape (nc data) (nr data)) (call_patefield (nr data) (nc data) nrowt ncolt sd)) in
    match seed with
    | Some z => if (z =? 0)%Z then (fun s => let '(r, s') := randint 0 NUMPY_INT_MAX s in go r s') else go z
    | None => fun s => let '(r, s') := randint 0 NUMPY_INT_MAX s in go r s'
    end.

(** np.array of a list of equally long lists *)
Definition of_rows (c : nat) (rows : list (list Z)) : mat := mkMat (length rows) c (fun i j => IZR (nth j (nth i rows []) 0%Z)).
(** simulation.py:111-126 [sim_2d_product_multinominal] *)
Definition sim_2d_product_multinominal (data : mat) (axis : Z) : M mat :=
  if (axis =? 1)%Z then mbind (mmap (fun i => sim_flat (row data i) 0) (seq 0 (nr data))) (fun rs => ret (of_rows (nc data) rs))
  else if (axis =? 0)%Z then mbind (mmap (fun i => sim_flat (row (transp data) i) 0) (seq 0 (nc data))) (fun rs => ret (transp (of_rows (nr data) rs)))
  else mraise NotImplementedError.

(** simulation.py:129-157 [sim_data] *)
Definition sim_data (data : mat) (method : string) : M mat :=
  if String.eqb method "multinominal" then sim_2d_data data 0
  else if String.eqb method "hypergeometric" then sim_2d_data_patefield data None
  else if String.eqb method "row_product_multinominal" then sim_2d_product_multinominal data 0
  else if String.eqb method "col_product_multinominal" then sim_2d_product_multinominal data 1
  else mraise NotImplementedError.

(** simulation.py:187-192 [_simulate_and_fit] *)
Definition simulate_and_fit (clamp : bool) (exp_dep : mat) (method : string) (l : lambda) : M R :=
  mbind (sim_data exp_dep method) (fun t => lift (get_chi2 clamp t l)).

(** simulation.py:160-184 [sim_chi2_distribution]; [workers]: with more than one core every task runs in a worker process with
    its own random state [w k], and joblib returns the results in task order *)
Definition sim_chi2_distribution (clamp : bool) (values : mat) (nsim : Z) (l : lambda) (method : string) (alt_hypothesis : bool)
    (workers : option (nat -> S)) : M (list R) :=
  let exp_dep := if alt_hypothesis then values else get_dependent_frequency_estimates values in
  let tasks := seq 0 (Z.to_nat nsim) in
  match workers with
  | None => mmap (fun _ => simulate_and_fit clamp exp_dep method l) tasks
  | Some w => lift (mapM (fun k => fst (simulate_and_fit clamp exp_dep method l (w k))) tasks)
  end.
End Sim.
