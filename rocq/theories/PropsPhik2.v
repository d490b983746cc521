(** C26, C31, C35, C37 continued: exact values (phik/phik.py). *)
From Coq Require Import String ZArith List Bool Reals Lra Lia Sorting.Permutation Sorting.Sorted.
Import ListNotations.
From Verif Require Import F64 Base Cells BinModel SpecBin HistModel SpecHist HistProofs RSum StatsModel SpecStats StatsProofs StatsProofs2 StatsProofs3 SpecSolver
  BrentModel BrentProofs BivModel SpecBiv BivProofs BivProofs2 PropsBiv PropsBiv2 Num PhikModel SpecPhik PhikProofs PhikProofs3 PhikMatProofs ArrayModel SpecArray ArrayProofs SparkModel SpecSpark SparkProofs PropsPhik.
Open Scope list_scope.
Open Scope R_scope.

(** C26: what the coefficient is.  [chi2] is Pearson's statistic of the table (C14), the pedestal the estimated number of degrees of
    freedom (C19) if noise is corrected for, else 0, and the maximum N (min(r, c) - 1).  Up to the pedestal the coefficient is 0, from the
    maximum on it is 1, and in between it is, within the solver's tolerance, the one correlation of a bivariate normal distribution
    whose chi2 on the r x c grid, scaled to that range, is the observed one. *)
Theorem C26_value : forall L m (noise : bool), lib_ok L -> nonneg_table m -> has_records m -> proper_shape m ->
  exists chi2, get_chi2 (l_clamp L) m Pearson = Ok chi2 /\
  let N := matsum m in let r := Z.of_nat (nr m) in let c := Z.of_nat (nc m) in
  let maximum := N * (IZR (Z.min r c) - 1) in let pedestal := if noise then IZR (estimate_simple_ndof m) else 0 in
  (chi2 <= pedestal -> phik_from_hist2d L m noise = Ok 0) /\
  (pedestal < maximum -> maximum <= chi2 -> phik_from_hist2d L m noise = Ok 1) /\
  (pedestal < chi2 -> chi2 < maximum -> chi2_regular (l_mvn L) (unit_edges (nr m)) (unit_edges (nc m)) -> forall v, phik_from_hist2d L m noise = Ok v ->
     exists rho, 0 < rho < 1 /\ chi2_from_phik (l_mvn L) rho N 0 None None None None pedestal r c = Ok chi2 /\ Rabs (v - rho) <= 101 / 10 ^ 7 /\
       (forall rho', 0 <= rho' <= 1 -> chi2_from_phik (l_mvn L) rho' N 0 None None None None pedestal r c = Ok chi2 -> rho' = rho)).
Proof.
  intros L m noise [MO RO] HN HR PS. exists (stat (l_clamp L) Pearson m (nz_rows m) (nz_cols m)). pose proof (get_chi2_closed (l_clamp L) m Pearson HN HR) as GE. split; [exact GE|].
  cbn zeta. set (chi2 := stat _ _ _ _ _) in *. destruct PS as [P1 P2]. pose proof (matsum_pos m HN HR) as MP.
  assert (NN : (0 <= estimate_simple_ndof m)%Z) by (unfold estimate_simple_ndof; destruct (Z.ltb_spec (Z.of_nat (nr m * nc m) - Z.of_nat (nr m + nc m) + 2 - 1 - Z.of_nat (zero_expected m)) 0); lia).
  set (ped := if noise then IZR (estimate_simple_ndof m) else 0).
  assert (PP : 0 <= ped) by (unfold ped; destruct noise; [apply (IZR_le 0); exact NN|lra]).
  assert (U : phik_from_hist2d L m noise = phik_from_chi2 (l_mvn L) (l_bq L) chi2 (matsum m) (Z.of_nat (nr m)) (Z.of_nat (nc m)) None None ped).
  { unfold phik_from_hist2d. rewrite GE. cbn [rbind]. unfold ped. destruct noise.
    - rewrite (proj2 (Z.ltb_ge (estimate_simple_ndof m) 0)) by exact NN. reflexivity.
    - rewrite Z.ltb_irrefl. reflexivity. }
  assert (MX : matsum m * (IZR (Z.min (Z.of_nat (nr m)) (Z.of_nat (nc m))) - 1) = matsum m * IZR (Z.min (Z.of_nat (nr m) - 1) (Z.of_nat (nc m) - 1))).
  { f_equal. rewrite <- minus_IZR. f_equal. lia. }
  rewrite MX, U. destruct (C21_cases (l_mvn L) (l_bq L) chi2 (matsum m) (Z.of_nat (nr m)) (Z.of_nat (nc m)) ped MO RO MP ltac:(lia) ltac:(lia) PP) as (C1 & C2 & _). cbn zeta in C1, C2.
  split; [exact C1|]. split; [exact C2|]. intros H1 H2 RG v E.
  apply (C21_solution (l_mvn L) (l_bq L) chi2 (matsum m) (Z.of_nat (nr m)) (Z.of_nat (nc m)) ped v MO RO); try assumption; try lia. rewrite !Nat2Z.id. exact RG.
Qed.

(** C31: which columns are binned when the caller does not say *)
Theorem C31_guessed_columns : forall npq L df bins q noise d u o,
  phik_matrix npq L df None bins q noise d u o = phik_matrix npq L df (Some (guess_interval_cols df)) bins q noise d u o /\
  (forall c, In c (guess_interval_cols df) <-> exists x, In (c, x) df /\ c_num x = true) /\
  (NoDup (keys df) -> guess_interval_cols df = filter (fun c => existsb (fun p => String.eqb (fst p) c && c_num (snd p)) df) (keys df)).
Proof.
  intros npq L df bins q noise d u o. split; [reflexivity|]. split.
  - intros c. unfold guess_interval_cols. rewrite in_map_iff. split.
    + intros ([c' x] & E & H). apply filter_In in H. cbn in E, H. subst c'. exists x. exact H.
    + intros (x & H & E). exists (c, x). split; [reflexivity|]. apply filter_In. auto.
  - intros ND. unfold guess_interval_cols, keys in *.
    assert (G : forall l, (forall p, In p l -> In p df) -> map fst (filter (fun p => c_num (snd p)) l) = filter (fun c => existsb (fun p => String.eqb (fst p) c && c_num (snd p)) df) (map fst l)).
    { induction l as [|[c x] l IH]; intros S; [reflexivity|]. cbn [map filter fst snd].
      assert (EX : existsb (fun p => String.eqb (fst p) c && c_num (snd p)) df = c_num x).
      { apply eq_true_iff_eq. rewrite existsb_exists. split.
        - intros ([c' x'] & Hin & B). cbn in B. apply andb_true_iff in B. destruct B as [B1 B2]. apply String.eqb_eq in B1. subst c'.
          assert (x' = x); [|subst; exact B2]. pose proof (S (c, x) (or_introl eq_refl)) as H2. clear - ND Hin H2.
          induction df as [|[a b] l IH]; [destruct Hin|]. cbn in ND. inversion ND as [|? ? N1 N2]; subst. destruct Hin as [E|Hin], H2 as [E2|H2].
          + congruence. + injection E as -> ->. exfalso. apply N1. apply in_map_iff. exists (c, x). auto.
          + injection E2 as -> ->. exfalso. apply N1. apply in_map_iff. exists (c, x'). auto. + apply IH; assumption.
        - intros B. exists (c, x). split; [apply S; left; reflexivity|]. cbn. rewrite String.eqb_refl, B. reflexivity. }
      rewrite EX. assert (IH' := IH (fun p Hp => S p (or_intror Hp))). destruct (c_num x); [cbn [map fst]; f_equal|]; exact IH'. }
    apply G. auto.
Qed.

(** C35: which records the array functions count, and as what.  [None] leaves the record out. *)
Definition array_category (str : cell -> string) (d u o : bool) (v : cell) : option cell :=
  if d && negb u && negb o then match v with CNaN => None | _ => Some v end
  else match v with
       | CStr s => if (u && String.eqb s "UF") || (o && String.eqb s "OF") then None else Some v
       | CNaN => Some (CStr (if d then "nan" else "NaN"))
       | _ => Some (CStr (str v))
       end.
Lemma clean_array_map : forall str d u o x, clean_array str d u o x = map (fun v => match clean_array str d u o [v] with [w] => w | _ => CNaN end) x.
Proof.
  intros str d u o x. unfold clean_array. destruct d, u, o; cbn [orb]; rewrite ?map_map; cbn [map]; try reflexivity. rewrite <- (map_id x) at 1. reflexivity.
Qed.
Lemma clean_array_category : forall str d u o v, python_str str -> seen0 (match clean_array str d u o [v] with [w] => w | _ => CNaN end) = array_category str d u o v.
Proof.
  intros str d u o v (S1 & S2 & S3). unfold array_category.
  assert (RS : forall a b s, repl (CStr a) b (CStr s) = if String.eqb s a then b else CStr s).
  { intros a b s. rewrite repl_eq. destruct (String.eqb_spec s a) as [->|NE]; destruct (cell_eq_dec (CStr _) (CStr _)) as [E|E]; try reflexivity; [congruence|injection E; congruence]. }
  assert (RN : forall b s, repl CNaN b (CStr s) = CStr s) by (intros b s; rewrite repl_eq; destruct (cell_eq_dec _ _); [discriminate|reflexivity]).
  assert (NS : forall w, w <> CNaN -> repl CNaN (CStr NaNs) w = w) by (intros w Hw; rewrite repl_eq; destruct (cell_eq_dec w CNaN); [contradiction|reflexivity]).
  assert (NN : repl CNaN (CStr NaNs) CNaN = CStr NaNs) by reflexivity.
  assert (Fin : forall w s0, (d && negb u && negb o = false) -> w <> CNaN -> str w = s0 ->
    seen0 (match clean_array str d u o [w] with [z] => z | _ => CNaN end) = if (u && String.eqb s0 "UF") || (o && String.eqb s0 "OF") then None else Some (CStr s0)).
  { intros w s0 Hd Hw Hs. unfold clean_array. destruct d, u, o; try discriminate; cbn [orb andb map]; unfold tostr; rewrite ?NS by exact Hw; rewrite ?S2, ?Hs, ?RS; unfold UFs, OFs;
      destruct (String.eqb_spec s0 "UF") as [->|]; cbn [orb]; rewrite ?RS; try reflexivity; try (destruct (String.eqb_spec s0 "OF") as [->|]; cbn [orb]; reflexivity). }
  destruct (d && negb u && negb o) eqn:Q.
  - destruct d, u, o; try discriminate. cbn. destruct v; reflexivity.
  - destruct v as [|z|k|s].
    + unfold clean_array. destruct d, u, o; try discriminate; cbn [orb map]; unfold tostr; rewrite ?NN, ?S1, ?S2, ?RS; reflexivity.
    + destruct (S3 (CInt z)) as (A & B & C); [discriminate|]. apply String.eqb_neq in A, B. rewrite (Fin (CInt z) _ eq_refl ltac:(discriminate) eq_refl), A, B, !andb_false_r. reflexivity.
    + destruct (S3 (CFlt k)) as (A & B & C); [discriminate|]. apply String.eqb_neq in A, B. rewrite (Fin (CFlt k) _ eq_refl ltac:(discriminate) eq_refl), A, B, !andb_false_r. reflexivity.
    + rewrite (Fin (CStr s) s eq_refl ltac:(discriminate) (S2 s)). reflexivity.
Qed.
Theorem C35_counted_records : forall str d u o x y, python_str str ->
  is_table_of (array_category str d u o) (combine x y) (crosstab (combine (clean_array str d u o x) (clean_array str d u o y))).
Proof.
  intros str d u o x y P. rewrite (clean_array_map str d u o x), (clean_array_map str d u o y), combine_map2.
  apply (is_table_ext (fun c => seen0 (match clean_array str d u o [c] with [w] => w | _ => CNaN end))); [intros c; apply clean_array_category, P|]. apply is_table_map, crosstab_table.
Qed.
(** C35: the coefficient of two arrays *)
Theorem C35_value : forall str L x y noise d u o h, python_str str -> lib_ok L -> is_table_of (array_category str d u o) (combine x y) h ->
  (~ proper_shape (hmat h) -> phik_from_binned_array str L x y noise d u o = Ok NaN) /\
  (proper_shape (hmat h) -> phik_from_binned_array str L x y noise d u o = rmap Fin (phik_from_hist2d L (hmat h) noise)).
Proof.
  intros str L x y noise d u o h P LO HT. pose proof (C35_counted_records str d u o x y P) as HT'. pose proof (is_table_unique _ _ _ _ HT HT') as ->.
  unfold phik_from_binned_array. set (h := crosstab _) in *. cbn zeta. pose proof (dq_hist_accepts (length (h_rows h)) (length (h_cols h))) as A.
  split; intros Q.
  - destruct (fst (dq_check_hist2d _ _)) eqn:B; [exfalso; apply Q; apply (proj1 A); reflexivity|reflexivity].
  - rewrite (proj2 A) by exact Q. cbn [negb]. destruct (phik_from_hist2d _ _ _); reflexivity.
Qed.
(** C35: the frame made of two arrays: two columns named after the Series (else x and y), the same records, and the same numbers *)
Theorem C35_array_frame : forall str x y, exists cx cy,
  array_like_to_dataframe str x y = [(match a_name x with Some s => s | None => "x"%string end, cx); (match a_name y with Some s => s | None => "y"%string end, cy)] /\
  (c_num cx = true <-> a_kind x = ANum /\ a_kind y = ANum) /\ (c_num cy = true <-> a_kind x = ANum /\ a_kind y = ANum) /\
  length (c_cells cx) = length (a_cells x) /\ length (c_cells cy) = length (a_cells y) /\
  (a_kind x = ANum -> a_kind y = ANum -> map to_float (c_cells cx) = map to_float (a_cells x) /\ map to_float (c_cells cy) = map to_float (a_cells y)) /\
  (a_kind x = AObj \/ a_kind y = AObj -> c_cells cx = a_cells x /\ c_cells cy = a_cells y) /\
  (a_kind x <> AObj -> a_kind y <> AObj -> a_kind x = AStr \/ a_kind y = AStr -> c_cells cx = map (fun v => CStr (str v)) (a_cells x) /\ c_cells cy = map (fun v => CStr (str v)) (a_cells y)).
Proof.
  intros str x y. unfold array_like_to_dataframe.
  assert (W : forall l, map to_float (map widen l) = map to_float l).
  { intros l. rewrite map_map. apply map_ext. intros [|z|k|s]; try reflexivity. cbn [widen to_float kval]. rewrite FrameProofs.ofZ_kf_ok. reflexivity. }
  destruct (a_kind x) eqn:KX, (a_kind y) eqn:KY; try destruct (forallb is_int (a_cells x ++ a_cells y));
    eexists _, _; (split; [reflexivity|]); cbn [c_num c_cells]; rewrite ?map_length, ?W;
    (split; [split; intuition congruence|]); (split; [split; intuition congruence|]); (split; [reflexivity|]); (split; [reflexivity|]);
    (split; [intros; try discriminate; auto|]); (split; [intros [H|H]; try discriminate; auto|]); intros H1 H2 [H|H]; try discriminate; try congruence; auto.
Qed.
(** C35: two numeric arrays keep their integers if there is nothing else; otherwise every integer of both becomes a float *)
Theorem C35_array_numbers : forall str x y cx cy, a_kind x = ANum -> a_kind y = ANum -> map snd (array_like_to_dataframe str x y) = [cx; cy] ->
  ((forall c, In c (a_cells x ++ a_cells y) -> exists z, c = CInt z) -> c_cells cx = a_cells x /\ c_cells cy = a_cells y) /\
  (forall c, In c (a_cells x ++ a_cells y) -> (forall z, c <> CInt z) -> forall z, ~ In (CInt z) (c_cells cx ++ c_cells cy)).
Proof.
  intros str x y cx cy KX KY H. unfold array_like_to_dataframe in H. rewrite KX, KY in H. destruct (forallb is_int (a_cells x ++ a_cells y)) eqn:F.
  - cbn [map snd] in H. assert (cx = mkCol true (a_cells x)) by congruence. assert (cy = mkCol true (a_cells y)) by congruence. subst cx cy. cbn [c_cells]. split; [split; reflexivity|]. intros c I N. exfalso. rewrite forallb_forall in F. specialize (F c I). destruct c; try discriminate. exact (N z eq_refl).
  - cbn [map snd] in H. assert (cx = mkCol true (map widen (a_cells x))) by congruence. assert (cy = mkCol true (map widen (a_cells y))) by congruence. subst cx cy. cbn [c_cells]. split.
    + intros A. exfalso. assert (X : forallb is_int (a_cells x ++ a_cells y) = true) by (apply forallb_forall; intros c I; destruct (A c I) as (z & ->); reflexivity). congruence.
    + intros _ _ _ z I. rewrite <- map_app in I. apply in_map_iff in I. destruct I as (c & E & _). destruct c; discriminate.
Qed.
(** C35: [phik_from_array] without numeric variables is [phik_from_binned_array]; otherwise the named columns of that frame are binned
    first (C06) and everything else is left as it is *)
Theorem C35_phik_from_array : forall str npq L x y num_vars bins q noise d u o,
  let xn := match a_name x with Some s => s | None => "x"%string end in let yn := match a_name y with Some s => s | None => "y"%string end in
  (num_vars = [] -> phik_from_array str npq L x y num_vars bins q noise d u o = phik_from_binned_array str L (a_cells x) (a_cells y) noise d u o) /\
  (num_vars <> [] -> match bin_data npq (array_like_to_dataframe str x y) num_vars bins q with
     | Raise e => phik_from_array str npq L x y num_vars bins q noise d u o = Raise e
     | Ok (f, _) => exists bx by', f = [(xn, bx); (yn, by')] /\ phik_from_array str npq L x y num_vars bins q noise d u o = phik_from_binned_array str L (c_cells bx) (c_cells by') noise d u o
     end).
Proof.
  intros str npq L x y nv bins q noise d u o xn yn. split; [intros ->; reflexivity|]. intros NE. unfold phik_from_array. destruct nv as [|c nv]; [congruence|].
  destruct (C35_array_frame str x y) as (cx & cy & EF & _). fold xn yn in EF. rewrite EF.
  destruct (bin_data npq _ (c :: nv) bins q) as [[f dict]|e] eqn:E; [|reflexivity]. cbn [rbind fst].
  apply BinDataProofs.bin_data_spec in E. destruct E as (K & _). cbn [keys map fst] in K. destruct f as [|[a bx] [|[b by'] [|]]]; try discriminate. cbn in K. injection K as -> ->.
  exists bx, by'. split; reflexivity.
Qed.

(** C35: [hist2d_from_array] is the contingency table of that frame, after binning its interval columns (both of them exactly when both
    arrays are numeric, unless the caller names them) *)
Theorem C35_hist2d_from_array : forall str npq x y ic bins q d u o,
  let xn := match a_name x with Some s => s | None => "x"%string end in let yn := match a_name y with Some s => s | None => "y"%string end in
  exists cx cy, array_like_to_dataframe str x y = [(xn, cx); (yn, cy)] /\
  let cols := match ic with Some l => l | None => match a_kind x, a_kind y with ANum, ANum => [xn; yn] | _, _ => [] end end in
  match bin_data npq [(xn, cx); (yn, cy)] cols bins q with
  | Raise e => hist2d_from_array str npq x y ic bins q d u o = Raise e
  | Ok (f, labels) => exists bx by' h, f = [(xn, bx); (yn, by')] /\ hist2d_from_array str npq x y ic bins q d u o = Ok (h, labels) /\
      is_table_of (counted_as d u o) (combine (c_cells bx) (c_cells by')) h
  end.
Proof.
  intros str npq x y ic bins q d u o xn yn. destruct (C35_array_frame str x y) as (cx & cy & EF & N1 & N2 & _). fold xn yn in EF. exists cx, cy. split; [exact EF|]. cbv zeta.
  assert (C : (match ic with Some l => l | None => guess_interval_cols [(xn, cx); (yn, cy)] end) = (match ic with Some l => l | None => match a_kind x, a_kind y with ANum, ANum => [xn; yn] | _, _ => [] end end)).
  { destruct ic; [reflexivity|]. unfold guess_interval_cols. cbn [filter map fst snd]. destruct (c_num cx), (c_num cy), (a_kind x), (a_kind y); try reflexivity; exfalso;
    try (destruct (proj1 N1 eq_refl); congruence); try (destruct (proj1 N2 eq_refl); congruence); try (specialize (proj2 N1 (conj eq_refl eq_refl)); congruence); try (specialize (proj2 N2 (conj eq_refl eq_refl)); congruence). }
  unfold hist2d_from_array. rewrite EF. unfold hist2d. cbn [length Nat.eqb negb]. rewrite C. match goal with |- context [bin_data npq _ ?c bins q] => set (cols := c) end.
  destruct (bin_data npq _ cols bins q) as [[f labels]|e] eqn:E; [|reflexivity]. cbn [rbind fst snd].
  apply BinDataProofs.bin_data_spec in E. destruct E as (K & _). cbn [keys map fst] in K. destruct f as [|[a bx] [|[b by'] [|]]]; try discriminate. cbn in K. injection K as -> ->.
  destruct (hist2d_rebinned_spec xn yn bx by' d u o) as (h & -> & HT). exists bx, by', h. split; [reflexivity|]. split; [reflexivity|exact HT].
Qed.
Example C35_hist2d_case : forall str npq, hist2d_from_array str npq (mkArr AObj None [CStr "a"; CInt 1; CStr "a"]) (mkArr AStr (Some "s"%string) [CStr "p"; CStr "p"; CStr "q"]) None (BOne (BNum 3)) false true true true
  = Ok (mkH [CInt 1; CStr "a"] [CStr "p"; CStr "q"] [[1; 0]; [1; 1]]%nat, []).
Proof. reflexivity. Qed.

(** C37: the global correlation of a variable is its multiple correlation with all others: the part of its variance (in the phik
    matrix) left over by the best linear combination x of the others is the fraction 1 - g^2 *)
Section Multiple.
  Variables (n : nat) (V W : nat -> nat -> R).
  Hypothesis SY : symmetric n V. Hypothesis PD : positive_definite n V. Hypothesis IV : right_inverse n V W.
  Variable i : nat. Hypothesis Hi : (i < n)%nat.
  Let B (x y : nat -> R) : R := lsum (fun k => x k * lsum (fun j => V k j * y j) (seq 0 n)) (seq 0 n).
  Lemma quad_B : forall x, quad n V x = B x x. Proof. apply quad_rows. Qed.
  Lemma quad_nonneg : forall x, 0 <= quad n V x.
  Proof.
    intros x. destruct (existsb (fun k => negb (reqb (x k) 0)) (seq 0 n)) eqn:Q.
    - apply existsb_exists in Q. destruct Q as (k & Hk & Q). apply in_seq in Hk. apply negb_true_iff, reqb_false in Q. apply Rlt_le, PD. exists k. split; [lia|exact Q].
    - right. symmetry. rewrite quad_rows. apply lsum_0. intros k Hk. assert (Z : x k = 0); [|rewrite Z; ring].
      destruct (reqb (x k) 0) eqn:B2; [apply reqb_true; exact B2|]. exfalso. assert (X : existsb (fun k => negb (reqb (x k) 0)) (seq 0 n) = true) by (apply existsb_exists; exists k; rewrite B2; auto). congruence.
  Qed.
  Lemma B_sym : forall x y, B x y = B y x.
  Proof.
    intros x y. unfold B. rewrite (lsum_ext _ _ (fun k => lsum (fun j => x k * V k j * y j) (seq 0 n))) by (intros k _; rewrite <- lsum_scal; apply lsum_ext; intros; ring).
    rewrite lsum_swap. apply lsum_ext. intros k Hk. rewrite <- lsum_scal. apply lsum_ext. intros j Hj. apply in_seq in Hk, Hj. rewrite (SY j k) by lia. ring.
  Qed.
  Lemma W_pos : 0 < W i i.
  Proof. pose proof (Vii_pos n V PD i Hi) as P. pose proof (Wii n V W SY PD IV i Hi) as Q. clear - P Q. apply Rmult_lt_reg_l with (V i i); [exact P|]. lra. Qed.
  Let w (k : nat) : R := W k i / W i i.
  Lemma Bw : forall x, B x w = x i / W i i.
  Proof.
    intros x. pose proof W_pos as WP. unfold B, w.
    rewrite (lsum_ext _ _ (fun k => (if Nat.eqb k i then x i / W i i else 0))).
    - rewrite (lsum_support _ Nat.eq_dec _ _ [i]); [unfold lsum; simpl; rewrite Nat.eqb_refl; lra|apply seq_NoDup|repeat constructor; intros []|].
      intros a Ha. rewrite in_seq. assert (Ea : a = i) by (destruct (Nat.eqb_spec a i) as [Q|Q]; [exact Q|contradiction Ha; reflexivity]). simpl. split; [auto|lia].
    - intros k Hk. apply in_seq in Hk. rewrite (lsum_ext _ _ (fun j => V k j * W j i * / W i i)) by (intros; unfold Rdiv; ring). rewrite lsum_scal_r, IV by lia.
      destruct (Nat.eqb_spec k i) as [->|]; [field; lra|ring].
  Qed.
  Lemma quad_min : forall x, x i = 1 -> 1 / W i i <= quad n V x.
  Proof.
    intros x Hx. pose proof W_pos as WP. pose proof (quad_nonneg (fun k => x k - w k)) as Q. rewrite quad_B in Q.
    assert (E : B (fun k => x k - w k) (fun k => x k - w k) = B x x - B x w - B w x + B w w).
    { unfold B. rewrite (lsum_ext _ (fun k => (x k - w k) * _) (fun k => x k * lsum (fun j => V k j * x j) (seq 0 n) - x k * lsum (fun j => V k j * w j) (seq 0 n) - w k * lsum (fun j => V k j * x j) (seq 0 n) + w k * lsum (fun j => V k j * w j) (seq 0 n))).
      - rewrite lsum_plus, !lsum_minus. reflexivity.
      - intros k _. rewrite (lsum_ext _ (fun j => V k j * (x j - w j)) (fun j => V k j * x j - V k j * w j)) by (intros; ring). rewrite lsum_minus. ring. }
    rewrite E, (B_sym w x), !Bw, Hx, <- quad_B in Q. unfold w in Q. replace (W i i / W i i / W i i) with (1 / W i i) in Q by (field; lra). lra.
  Qed.
  Lemma quad_min_at : w i = 1 /\ quad n V w = 1 / W i i.
  Proof. pose proof W_pos as WP. split; [unfold w; field; lra|]. rewrite quad_B, Bw. unfold w. field. lra. Qed.
  Lemma multiple : forall g, g * g = 1 - 1 / (V i i * W i i) ->
    (forall x, x i = 1 -> (1 - g * g) * V i i <= quad n V x) /\ exists x, x i = 1 /\ quad n V x = (1 - g * g) * V i i.
  Proof.
    intros g Hg. pose proof W_pos as WP. pose proof (Vii_pos n V PD i Hi) as P. assert (E : (1 - g * g) * V i i = 1 / W i i) by (rewrite Hg; field; lra). rewrite E.
    split; [exact quad_min|]. exists w. exact quad_min_at.
  Qed.
End Multiple.
Theorem C37_value : forall L inv f noise d u o t n V, fst (phik_from_rebinned_df L f noise d u o) = Ok t -> t_cells t = rows_of n V ->
  symmetric n V -> positive_definite n V -> inverts inv n V ->
  exists W g, right_inverse n V W /\ global_phik_from_rebinned_df L inv f noise d u o = Ok (map (fun i => Fin (g i)) (seq 0 n), t_index t) /\
    forall i, (i < n)%nat -> 0 <= g i < 1 /\ g i = sqrt (1 - 1 / (V i i * W i i)) /\
      (forall x, x i = 1 -> (1 - g i * g i) * V i i <= quad n V x) /\ (exists x, x i = 1 /\ quad n V x = (1 - g i * g i) * V i i).
Proof.
  intros L inv f noise d u o t n V E C SY PD IV. unfold global_phik_from_rebinned_df. rewrite E. cbn [rbind]. rewrite C.
  destruct IV as [(W & RI & ->)|[NI _]]; [|destruct (pd_inverse n V SY PD) as (W & HW); destruct (NI W HW)]. cbn [rbind].
  exists W, (fun i => sqrt (1 - 1 / (V i i * W i i))). split; [exact RI|].
  assert (LR : length (rows_of n V) = n) by (unfold rows_of; rewrite map_length; apply seq_length). rewrite LR.
  assert (GU : forall i, (i < n)%nat -> global_value (Fin (V i i)) (Fin (W i i)) = Fin (sqrt (1 - 1 / (V i i * W i i))) /\ 0 <= sqrt (1 - 1 / (V i i * W i i)) < 1 /\ sqrt (1 - 1 / (V i i * W i i)) * sqrt (1 - 1 / (V i i * W i i)) = 1 - 1 / (V i i * W i i)).
  { intros i Hi. destruct (global_unit n V W SY PD RI i Hi) as (g & H1 & H2 & H3). assert (g = sqrt (1 - 1 / (V i i * W i i))) by (rewrite <- H3; symmetry; apply sqrt_square; lra). subst g. auto. }
  split.
  - f_equal. f_equal. apply map_ext_in. intros i Hi. apply in_seq in Hi. rewrite !rows_nth by lia. apply GU. lia.
  - intros i Hi. destruct (GU i Hi) as (_ & G1 & G2). split; [exact G1|]. split; [reflexivity|]. apply (multiple n V W SY PD RI i Hi). exact G2.
Qed.
Print Assumptions C26_value.
Print Assumptions C35_value.
Print Assumptions C37_value.
