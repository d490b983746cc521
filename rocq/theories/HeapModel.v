(** Data frames as mutable objects.  Models which function allocates a copy and which one writes into the frame it was given:
    phik/data_quality.py:81-90, phik/binning.py:101-119 and 157-166, phik/phik.py:125-158, phik/significance.py:262-299,
    phik/outliers.py:384-564.  A program works on a heap of frames and on the random state. *)
From Coq Require Import String ZArith List Bool Reals.
Import ListNotations.
From Verif Require Import F64 Base Cells BinModel HistModel RSum StatsModel BivModel Num PhikModel ArrayModel SparkModel RcontModel SimModel SigModel BetaModel OutModel.
Open Scope list_scope.

(** everything outside phik *)
Record env (St : Type) := mkEnv {
  e_lib : lib; e_inv : list (list num) -> res (list (list num)); e_npq : list f64 -> Z -> list f64;
  e_out : olib; e_fmt : Z -> f64 * f64 -> string;
  e_sig : slib; e_multinomial : Z -> list R -> St -> res (list Z) * St; e_randint : Z -> Z -> St -> Z * St;
  e_exp : f64 -> f64; e_log : f64 -> f64; e_uninit : nat -> list Z; e_ib0 : Z; e_fuel : nat; e_cpp : bool; e_clamp : bool;
  e_workers : string -> string -> option (nat -> St) }.
Arguments e_lib {St}. Arguments e_inv {St}. Arguments e_npq {St}. Arguments e_out {St}. Arguments e_fmt {St}. Arguments e_sig {St}.
Arguments e_multinomial {St}. Arguments e_randint {St}. Arguments e_exp {St}. Arguments e_log {St}. Arguments e_uninit {St}. Arguments e_ib0 {St}.
Arguments e_fuel {St}. Arguments e_cpp {St}. Arguments e_clamp {St}. Arguments e_workers {St}.

Section Heap.
Variable St : Type.
Variable E : env St.

(** a frame reference is its position in the heap *)
Definition heap := list frame.
Definition HM (A : Type) := heap -> St -> res A * heap * St.
Definition hret {A} (a : A) : HM A := fun h s => (Ok a, h, s).
Definition hraise {A} (e : exn) : HM A := fun h s => (Raise e, h, s).
Definition hbind {A B} (m : HM A) (k : A -> HM B) : HM B :=
  fun h s => match m h s with (Ok a, h', s') => k a h' s' | (Raise e, h', s') => (Raise e, h', s') end.
Definition hlift {A} (r : res A) : HM A := fun h s => (r, h, s).
(** a computation that uses the random state only *)
Definition hrand {A} (m : SimModel.M St A) : HM A := fun h s => let '(r, s') := m s in (r, h, s').

(** read the frame; [new]: a new object; [df.copy()]; an operation with inplace=True *)
Definition hget (l : nat) : HM frame := fun h s => (Ok (nth l h []), h, s).
Definition hnew (f : frame) : HM nat := fun h s => (Ok (length h), h ++ [f], s).
Definition hcopy (l : nat) : HM nat := hbind (hget l) hnew.
Fixpoint upd {A} (l : nat) (g : A -> A) (h : list A) : list A :=
  match h, l with [], _ => [] | a :: h', O => g a :: h' | a :: h', S l' => a :: upd l' g h' end.
Definition hwrite (l : nat) (g : frame -> frame) : HM unit := fun h s => (Ok tt, upd l g h, s).

(** data_quality.py:49-90 [dq_check_nunique_values]: copy, then drop columns of the copy in place *)
Definition to_drop (df : frame) (ic : list string) (dropna : bool) : list string :=
  let nu c := match assoc c df with Some x => nunique x | None => 0%nat end in
  filter (fun c => Nat.ltb (nu c) 2) ic ++
  filter (fun c => Nat.eqb (nu c) 0 || (Nat.eqb (nu c) 1 && dropna)) (filter (fun c => negb (mem c ic)) (keys df)).
Definition dq_h (l : nat) (interval_cols : list string) (dropna : bool) : HM (nat * list string) :=
  hbind (hget l) (fun df =>
  let ic := filter (fun c => mem c (keys df)) interval_cols in
  let drop := to_drop df ic dropna in
  hbind (hcopy l) (fun l' =>
  match drop with
  | [] => hret (l', ic)
  | _ => hbind (hwrite l' (filter (fun p => negb (mem (fst p) drop)))) (fun _ => hret (l', filter (fun c => negb (mem c drop)) ic))
  end)).

(** binning.py:103-114: reads [data] (l), writes [binned_data] (l') column by column *)
Fixpoint bin_cols_h (l l' : nat) (cols : list string) (bins : bins_arg) (quantile : bool) (xbins : option (list f64))
    (dict : list (string * list (f64 * f64))) : HM (list (string * list (f64 * f64))) :=
  match cols with
  | [] => hret dict
  | c :: cols' =>
      hbind (hget l) (fun data =>
      match assoc c data with
      | None => hraise KeyError
      | Some column =>
          hbind (hlift (mapM to_float (c_cells column))) (fun arr =>
          hbind (hlift (match bins with
            | BOne (BNum n) => rmap Some (bin_edges (e_npq E) arr n quantile)
            | BOne _ => Ok xbins
            | BDict d =>
                match assoc c d with
                | Some (BNum n) => rmap Some (bin_edges (e_npq E) arr n quantile)
                | Some (BEdges b) => Ok (Some b)
                | Some BOther => Ok xbins
                | None => Raise KeyError
                end
            end)) (fun xb =>
          match xb with
          | None => hraise UnboundLocalError
          | Some edges =>
              let (b, labels) := bin_array arr edges in
              hbind (hwrite l' (set_assoc c (mkCol false b))) (fun _ =>
              bin_cols_h l l' cols' bins quantile xb (dict_set c labels dict))
          end))
      end)
  end.
(** binning.py:92-119 [bin_data] *)
Definition bin_data_h (l : nat) (cols : list string) (bins : bins_arg) (quantile : bool) : HM (nat * list (string * list (f64 * f64))) :=
  let go xb := hbind (hcopy l) (fun l' => hbind (bin_cols_h l l' cols bins quantile xb []) (fun d => hret (l', d))) in
  match bins with
  | BDict d => if forallb (fun c => mem c (keys d)) cols then go None else hraise ValueError
  | BOne (BEdges b) => go (Some b)
  | BOne _ => go None
  end.

(** df.replace(a, b, inplace=True), df.fillna(b, inplace=True) *)
Definition replace_all (a b : cell) (f : frame) : frame :=
  map (fun p => (fst p, mkCol (c_num (snd p)) (map (repl a b) (c_cells (snd p))))) f.
Definition clean_h (l : nat) (dropna uf of : bool) : HM unit :=
  hbind (if dropna then hret tt else hwrite l (replace_all CNaN (CStr NaNs))) (fun _ =>
  hbind (if uf then hwrite l (replace_all (CStr UFs) CNaN) else hret tt) (fun _ =>
  if of then hwrite l (replace_all (CStr OFs) CNaN) else hret tt)).

(** binning.py:142-168 [hist2d_from_rebinned_df] *)
Definition hist2d_reb_h (l : nat) (dropna uf of : bool) : HM htable :=
  hbind (hget l) (fun f =>
  if negb (Nat.eqb (length f) 2) then hraise ValueError
  else hbind (clean_h l dropna uf of) (fun _ =>
  hbind (hget l) (fun f' =>
  match f' with
  | [(_, x); (_, y)] => hret (crosstab (combine (c_cells x) (c_cells y)))
  | _ => hraise ValueError
  end))).
(** phik.py:103-158 [phik_from_rebinned_df] *)
Definition phik_reb_h (l : nat) (noise dropna uf of : bool) : HM ntable :=
  hbind (clean_h l dropna uf of) (fun _ =>
  hbind (hget l) (fun f' =>
  let order := keys f' in
  hbind (hlift (mapM (fun pq => calc_phik (e_lib E) noise (fst pq) (snd pq)) (combos f'))) (fun vals =>
  hret (match vals with
        | [] => mkT order order (map (fun _ => map (fun _ => NaN) order) order)
        | _ => reindex (overview vals) order
        end)))).
(** phik.py:226-253 [global_phik_from_rebinned_df] *)
Definition global_reb_h (l : nat) (noise dropna uf of : bool) : HM (list num * list string) :=
  hbind (phik_reb_h l noise dropna uf of) (fun t =>
  let V := t_cells t in
  hbind (hlift (e_inv E V)) (fun W =>
  hret (map (fun i => global_value (nth i (nth i V []) NaN) (nth i (nth i W []) NaN)) (seq 0 (length V)), t_index t))).
(** significance.py:242-299 [significance_from_rebinned_df] *)
Definition calc_sig := calc_signif (e_sig E) St (e_multinomial E) (e_randint E) (e_exp E) (e_log E) (e_uninit E) (e_ib0 E) (e_fuel E) (e_cpp E) (e_clamp E).
Definition signif_reb_h (l : nat) (lam : lambda) (simm : string) (nsim : Z) (sigm : string) (dropna uf of : bool) : HM ntable :=
  hbind (clean_h l dropna uf of) (fun _ =>
  hbind (hget l) (fun f' =>
  let order := keys f' in
  hbind (hrand (mmap St (fun pq => calc_sig nsim lam simm sigm (e_workers E) (fst pq) (snd pq)) (combos f'))) (fun vals =>
  hret (match vals with
        | [] => mkT order order (map (fun _ => map (fun _ => NaN) order) order)
        | _ => reindex (overview vals) order
        end)))).
(** outliers.py:384-428 [outlier_significance_matrix_from_rebinned_df] *)
Definition outlier_reb_h (l : nat) (dict : list (string * list (f64 * f64))) (CI : string) (nd : Z) (dropna uf of : bool) : HM oresult :=
  hbind (hget l) (fun f =>
  match f with
  | [(c0, _); (c1, _)] =>
      hbind (hist2d_reb_h l dropna uf of) (fun h =>
      if is01 (length (h_rows h)) || is01 (length (h_cols h)) then hret ONaN
      else hbind (hget l) (fun f' =>
        match f' with
        | [(_, x); (_, y)] =>
            hbind (hlift (relabel (e_fmt E) nd dict c0 (c_cells x) (h_rows h))) (fun rows =>
            hbind (hlift (relabel (e_fmt E) nd dict c1 (c_cells y) (h_cols h))) (fun cols =>
            hbind (hlift (outlier_significance_matrix_from_hist2d (e_out E) h CI)) (fun pz =>
            hret (OMat rows cols (map (map snd) pz)))))
        | _ => hraise ValueError
        end))
  | _ => hraise ValueError
  end).
(** outliers.py:476-515 [outlier_significance_matrices_from_rebinned_df]: data_binned[[c0, c1]].copy() for every pair *)
Fixpoint hmap {A B} (f : A -> HM B) (l : list A) : HM (list B) :=
  match l with [] => hret [] | a :: l' => hbind (f a) (fun b => hbind (hmap f l') (fun bs => hret (b :: bs))) end.
Definition outliers_reb_h (l : nat) (dict : list (string * list (f64 * f64))) (CI : string) (nd : Z) (combinations : list (string * string))
    (dropna uf of : bool) : HM (list (string * string * oresult)) :=
  hbind (hget l) (fun f =>
  hmap (fun c =>
    hbind (hget l) (fun f =>
    hbind (hlift (two_columns f c)) (fun f2 =>
    hbind (hnew f2) (fun l2 =>
    hbind (outlier_reb_h l2 dict CI nd dropna uf of) (fun m => hret (fst c, snd c, m))))))
    (match combinations with [] => pairs (keys f) | _ => combinations end)).

(** the functions on user frames *)
Definition prepare_h (l : nat) (interval_cols : option (list string)) (bins : bins_arg) (quantile dropna : bool) : HM (nat * list (string * list (f64 * f64))) :=
  hbind (hget l) (fun df =>
  hbind (dq_h l (match interval_cols with Some c => c | None => guess_interval_cols df end) dropna) (fun p =>
  bin_data_h (fst p) (snd p) bins quantile)).
(** binning.py:171-206 [hist2d] *)
Definition hist2d_h (l : nat) ic bins (q d u o : bool) : HM (htable * list (string * list (f64 * f64))) :=
  hbind (hget l) (fun df =>
  if negb (Nat.eqb (length df) 2) then hraise ValueError
  else hbind (bin_data_h l (match ic with Some c => c | None => guess_interval_cols df end) bins q) (fun bd =>
  hbind (hist2d_reb_h (fst bd) d u o) (fun h => hret (h, snd bd)))).
(** phik.py:187-223 [phik_matrix], phik.py:256-288 [global_phik_array], significance.py:302-338 [significance_matrix] *)
Definition phik_matrix_h (l : nat) ic bins (q noise d u o : bool) : HM ntable :=
  hbind (prepare_h l ic bins q d) (fun bd => phik_reb_h (fst bd) noise d u o).
Definition global_phik_h (l : nat) ic bins (q noise d u o : bool) : HM (list num * list string) :=
  hbind (prepare_h l ic bins q d) (fun bd => global_reb_h (fst bd) noise d u o).
Definition signif_matrix_h (l : nat) ic lam simm nsim sigm bins (d u o : bool) : HM ntable :=
  hbind (prepare_h l ic bins false d) (fun bd => signif_reb_h (fst bd) lam simm nsim sigm d u o).
(** outliers.py:431-473 [outlier_significance_matrix], 518-564 [outlier_significance_matrices] *)
Definition outlier_matrix_h (l : nat) ic CI nd bins (q d u o : bool) : HM (oresult * list (string * list (f64 * f64))) :=
  hbind (hget l) (fun df =>
  if negb (Nat.eqb (length df) 2) then hraise ValueError
  else hbind (prepare_h l ic bins q d) (fun bd => hbind (outlier_reb_h (fst bd) (snd bd) CI nd d u o) (fun m => hret (m, snd bd)))).
Definition outlier_matrices_h (l : nat) ic CI nd bins (q : bool) combos (d u o : bool) : HM (list (string * oresult) * list (string * list (f64 * f64))) :=
  hbind (prepare_h l ic bins q d) (fun bd => hbind (outliers_reb_h (fst bd) (snd bd) CI nd combos d u o) (fun ms =>
  hret (fold_left (fun dd m => dict_set (colon_key (fst (fst m)) (snd (fst m))) (snd m) dd) ms [], snd bd))).

(** * Programs: sequences of calls on frames of the heap *)
Inductive value := VHist (h : htable) | VHistBins (r : htable * list (string * list (f64 * f64))) | VTable (t : ntable) | VGlobal (g : list num * list string)
  | VOut (m : oresult) | VOutBins (r : oresult * list (string * list (f64 * f64))) | VOuts (l : list (string * string * oresult))
  | VOutsBins (r : list (string * oresult) * list (string * list (f64 * f64))).
(** functions on user frames *)
Inductive user_call :=
  | Hist2d (ic : option (list string)) (bins : bins_arg) (q d u o : bool)
  | PhikMatrix (ic : option (list string)) (bins : bins_arg) (q noise d u o : bool)
  | GlobalPhik (ic : option (list string)) (bins : bins_arg) (q noise d u o : bool)
  | SignificanceMatrix (ic : option (list string)) (lam : lambda) (simm : string) (nsim : Z) (sigm : string) (bins : bins_arg) (d u o : bool)
  | OutlierMatrix (ic : option (list string)) (CI : string) (nd : Z) (bins : bins_arg) (q d u o : bool)
  | OutlierMatrices (ic : option (list string)) (CI : string) (nd : Z) (bins : bins_arg) (q : bool) (combos : list (string * string)) (d u o : bool).
(** functions on pre-binned frames *)
Inductive binned_call :=
  | Hist2dB | PhikB (noise : bool) | GlobalB (noise : bool) | SignificanceB (lam : lambda) (simm : string) (nsim : Z) (sigm : string)
  | OutlierB (dict : list (string * list (f64 * f64))) (CI : string) (nd : Z).
Inductive call :=
  | User (c : user_call)
  | Binned (c : binned_call) (d u o : bool)
  | OutliersB (dict : list (string * list (f64 * f64))) (CI : string) (nd : Z) (combos : list (string * string)) (d u o : bool).

Definition hmapr {A B} (f : A -> B) (m : HM A) : HM B := hbind m (fun a => hret (f a)).
Definition run_user (c : user_call) (l : nat) : HM value :=
  match c with
  | Hist2d ic bins q d u o => hmapr VHistBins (hist2d_h l ic bins q d u o)
  | PhikMatrix ic bins q noise d u o => hmapr VTable (phik_matrix_h l ic bins q noise d u o)
  | GlobalPhik ic bins q noise d u o => hmapr VGlobal (global_phik_h l ic bins q noise d u o)
  | SignificanceMatrix ic lam simm nsim sigm bins d u o => hmapr VTable (signif_matrix_h l ic lam simm nsim sigm bins d u o)
  | OutlierMatrix ic CI nd bins q d u o => hmapr VOutBins (outlier_matrix_h l ic CI nd bins q d u o)
  | OutlierMatrices ic CI nd bins q combos d u o => hmapr VOutsBins (outlier_matrices_h l ic CI nd bins q combos d u o)
  end.
Definition run_binned (c : binned_call) (d u o : bool) (l : nat) : HM value :=
  match c with
  | Hist2dB => hmapr VHist (hist2d_reb_h l d u o)
  | PhikB noise => hmapr VTable (phik_reb_h l noise d u o)
  | GlobalB noise => hmapr VGlobal (global_reb_h l noise d u o)
  | SignificanceB lam simm nsim sigm => hmapr VTable (signif_reb_h l lam simm nsim sigm d u o)
  | OutlierB dict CI nd => hmapr VOut (outlier_reb_h l dict CI nd d u o)
  end.
Definition run_call (c : call) (l : nat) : HM value :=
  match c with
  | User c => run_user c l
  | Binned c d u o => run_binned c d u o l
  | OutliersB dict CI nd combos d u o => hmapr VOuts (outliers_reb_h l dict CI nd combos d u o)
  end.
(** a caller that catches exceptions and goes on: the results in order, the heap at the end *)
Fixpoint run (prog : list (call * nat)) (h : heap) (s : St) : list (res value) * heap * St :=
  match prog with
  | [] => ([], h, s)
  | (c, l) :: prog' =>
      let '(r, h1, s1) := run_call c l h s in
      let '(rs, h2, s2) := run prog' h1 s1 in (r :: rs, h2, s2)
  end.
End Heap.
