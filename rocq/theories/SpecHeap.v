(** What a call returns as a function of the content of the frame it is given, and what it leaves behind. *)
From Coq Require Import String ZArith List Bool Reals.
Import ListNotations.
From Verif Require Import F64 Base Cells BinModel HistModel RSum StatsModel BivModel Num PhikModel ArrayModel SparkModel RcontModel SimModel SigModel BetaModel OutModel HeapModel.
Open Scope list_scope.

(** a cell after an in-place clean-up *)
Definition replaced (dropna uf of : bool) (c : cell) : cell :=
  match c with
  | CNaN => if dropna then CNaN else CStr "NaN"
  | CStr s => if (String.eqb s "UF" && uf) || (String.eqb s "OF" && of) then CNaN else c
  | _ => c
  end.
Definition replaced_frame (dropna uf of : bool) (f : frame) : frame :=
  map (fun p => (fst p, mkCol (c_num (snd p)) (map (replaced dropna uf of) (c_cells (snd p))))) f.

(** the frame after the call: only the pre-binned variants write into it, and hist2d and the outlier matrix reject a frame that
    does not have two columns before they write *)
Definition needs_two (c : binned_call) : bool := match c with Hist2dB | OutlierB _ _ _ => true | _ => false end.
Definition left_behind (c : call) (f : frame) : frame :=
  match c with
  | Binned c d u o => if needs_two c && negb (Nat.eqb (length f) 2) then f else replaced_frame d u o f
  | _ => f
  end.
(** the frame at one position after a sequence of calls *)
Fixpoint left_by (prog : list (call * nat)) (l : nat) (f : frame) : frame :=
  match prog with
  | [] => f
  | (c, l') :: prog' => left_by prog' l (if Nat.eqb l' l then left_behind c f else f)
  end.

Section Meaning.
Variable St : Type.
Variable E : env St.
Definition rres {A} (f : A -> value) (r : res A) : St -> res value * St := fun s => (rmap f r, s).
Definition rmon {A} (f : A -> value) (m : SimModel.M St A) : St -> res value * St := fun s => (rmap f (fst (m s)), snd (m s)).
(** results according to the models of the functions on frame contents (no heap) *)
Definition meaning_user (c : user_call) (f : frame) : St -> res value * St :=
  match c with
  | Hist2d ic bins q d u o => rres VHistBins (hist2d (e_npq E) f ic bins q d u o)
  | PhikMatrix ic bins q noise d u o => rres VTable (phik_matrix (e_npq E) (e_lib E) f ic bins q noise d u o)
  | GlobalPhik ic bins q noise d u o => rres VGlobal (global_phik_array (e_npq E) (e_lib E) (e_inv E) f ic bins q noise d u o)
  | SignificanceMatrix ic lam simm nsim sigm bins d u o =>
      rmon VTable (significance_matrix (e_sig E) St (e_multinomial E) (e_randint E) (e_exp E) (e_log E) (e_uninit E) (e_ib0 E) (e_fuel E) (e_cpp E) (e_clamp E)
        (e_npq E) f ic lam simm nsim sigm bins d u o (e_workers E))
  | OutlierMatrix ic CI nd bins q d u o => rres VOutBins (outlier_significance_matrix (e_out E) (e_fmt E) (e_npq E) f ic CI nd bins q d u o)
  | OutlierMatrices ic CI nd bins q combos d u o => rres VOutsBins (outlier_significance_matrices (e_out E) (e_fmt E) (e_npq E) f ic CI nd bins q combos d u o)
  end.
Definition meaning_binned (c : binned_call) (d u o : bool) (f : frame) : St -> res value * St :=
  match c with
  | Hist2dB => rres VHist (fst (hist2d_from_rebinned_df f d u o))
  | PhikB noise => rres VTable (fst (phik_from_rebinned_df (e_lib E) f noise d u o))
  | GlobalB noise => rres VGlobal (global_phik_from_rebinned_df (e_lib E) (e_inv E) f noise d u o)
  | SignificanceB lam simm nsim sigm =>
      rmon VTable (fst (significance_from_rebinned_df (e_sig E) St (e_multinomial E) (e_randint E) (e_exp E) (e_log E) (e_uninit E) (e_ib0 E) (e_fuel E) (e_cpp E) (e_clamp E)
        f lam simm nsim sigm d u o (e_workers E)))
  | OutlierB dict CI nd => rres VOut (fst (outlier_significance_matrix_from_rebinned_df (e_out E) (e_fmt E) f dict CI nd d u o))
  end.
Definition meaning (c : call) (f : frame) : St -> res value * St :=
  match c with
  | User c => meaning_user c f
  | Binned c d u o => meaning_binned c d u o f
  | OutliersB dict CI nd combos d u o => rres VOuts (outlier_significance_matrices_from_rebinned_df (e_out E) (e_fmt E) f dict CI nd combos d u o)
  end.
End Meaning.

(** earlier clean-ups with flags (d', u', o') do not matter for a later one with flags (d, u, o) *)
Definition harmless (d' u' o' d u o : bool) : Prop :=
  (d' = false -> d = false) /\ (u' = true \/ o' = true -> d = true) /\ (u' = true -> u = true) /\ (o' = true -> o = true).
