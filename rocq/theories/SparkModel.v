(** Model of phik/phik.py:33-73 (spark) and phik/phik.py:226-288 (global correlations). *)
From Coq Require Import String Ascii ZArith List Bool Reals.
Import ListNotations.
From Verif Require Import F64 Base Cells BinModel HistModel RSum StatsModel BivModel Num PhikModel.
Open Scope list_scope.

(** Python's s.split(':') *)
Fixpoint split_colon (s : string) : list string :=
  match s with
  | EmptyString => [EmptyString]
  | String c s' => if Ascii.eqb c ":"%char then EmptyString :: split_colon s'
                   else match split_colon s' with h :: t => String c h :: t | [] => [String c EmptyString] end
  end.

(** a value of hist_dict: a numpy array or something else *)
Inductive hval := HArr (m : mat) | HOther.

(** phik.py:58-73 [_phik_from_row] *)
Definition phik_from_row (L : lib) (row : string * mat) : res (string * string * num) :=
  let '(key, grid) := row in
  let c := split_colon key in
  let rest :=
    let* v := match phik_from_hist2d L grid true with Ok v => Ok (Fin v) | Raise TypeError => Ok NaN | Raise e => Raise e end in
    match c with c0 :: c1 :: _ => Ok (c0, c1, v) | _ => Raise IndexError end in
  match c with [c0; c1] => if String.eqb c0 c1 then Ok (c0, c1, Fin 1) else rest | _ => rest end.

(** phik.py:33-55 [spark_phik_matrix_from_hist2d_dict]; collect() returns the rows in the order of the dictionary *)
Definition spark_phik_matrix (L : lib) (hist_dict : list (string * hval)) : res ntable :=
  if existsb (fun kv => match snd kv with HOther => true | _ => false end) hist_dict then Raise TypeError
  else let* vals := mapM (phik_from_row L) (flat_map (fun kv => match snd kv with HArr m => [(fst kv, m)] | HOther => [] end) hist_dict) in
       Ok (overview vals).

(** np.sqrt(1 - 1/(v*w)): NaN for a negative argument; 1/0 is infinite, so the argument is -inf *)
Definition global_value (v w : num) : num :=
  match v, w with
  | Fin a, Fin b => if Req_EM_T (a * b) 0 then NaN else let r := (1 - 1 / (a * b))%R in if Rlt_dec r 0 then NaN else Fin (sqrt r)
  | _, _ => NaN
  end.
(** phik.py:226-253 [global_phik_from_rebinned_df]; [inv] is numpy.linalg.inv *)
Definition global_phik_from_rebinned_df (L : lib) (inv : list (list num) -> res (list (list num))) (f : frame) (noise dropna uf of : bool) : res (list num * list string) :=
  let* t := fst (phik_from_rebinned_df L f noise dropna uf of) in
  let V := t_cells t in
  let* W := inv V in
  Ok (map (fun i => global_value (nth i (nth i V []) NaN) (nth i (nth i W []) NaN)) (seq 0 (length V)), t_index t).
(** phik.py:256-288 [global_phik_array] *)
Definition global_phik_array npq (L : lib) inv (df : frame) (interval_cols : option (list string)) (bins : bins_arg) (quantile noise dropna uf of : bool) : res (list num * list string) :=
  let ic := match interval_cols with Some l => l | None => guess_interval_cols df end in
  let '(clean_df, ic') := dq_check_nunique_values df ic dropna in
  let* bd := bin_data npq clean_df ic' bins quantile in
  global_phik_from_rebinned_df L inv (fst bd) noise dropna uf of.
