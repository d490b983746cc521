(** C88: the chi2 statistic in floating-point arithmetic. C89: phik_from_hist2d in floating-point arithmetic. *)
From Coq Require Import ZArith List Bool Reals Lia Lra Psatz Permutation.
Import ListNotations.
From Flocq Require Import Core BinarySingleNaN.
From Verif Require Import F64 Base RSum StatsModel SpecStats StatsProofs LinspaceProofs BrentFModel BrentFProofs Chi2FModel SpecChi2F Chi2FProofs Chi2FProofs2 Chi2FProofs3 PropsFloatPhik.
Open Scope R_scope.

(** For every table of counts with at least one record, in every order in which numpy may add: the statistic computed in binary64
    exists (scipy raises nothing; its comparison of the two sums never fires), is finite and not negative, and is within [chi2_tol] of the
    exact statistic. *)
Theorem C88_chi2_rounding : forall add_up m, any_order add_up -> count_table64 m -> has_records (real_table m) -> moderate (real_table m) ->
  exists c chi, get_chi2_64 add_up m = Ok c /\ get_chi2 true (real_table m) Pearson = Ok chi /\
    ffin c = true /\ 0 <= f2R c /\ 0 <= chi /\ Rabs (f2R c - chi) <= chi2_tol (real_table m) chi.
Proof.
  intros add_up m AO CT HR [HN HK]. destruct (chi2_any add_up m AO CT HR HN HK) as (c & chi & H1 & H2 & [H3 H4] & H5 & H6).
  exists c, chi. repeat split; try assumption. eapply Rle_trans; [exact H6|]. unfold chi2_tol. pose proof u53_pos. apply Rmult_le_compat_l; [lra|]. apply Rplus_le_compat_l. apply Rmult_le_compat_r; [exact H5|]. apply Rplus_le_compat_r. apply Rmult_le_compat_l; [lra|].
  apply le_INR, Nat.mul_le_mono; unfold nz_rows, nz_cols, idx; eapply Nat.le_trans; try apply filter_len; rewrite seq_length; reflexivity.
Qed.

(** a table without records raises, whatever numpy's order of additions *)
Theorem C88_no_records : forall add_up m, count_table64 m -> ~ has_records (real_table m) -> get_chi2_64 add_up m = Raise ValueError.
Proof.
  intros add_up m CT HR. assert (FT : fin_table m) by (intros i j Hi Hj; apply (CT i j Hi Hj)). pose proof (kept_shape m FT) as [S1 S2].
  assert (E : nz_rows (real_table m) = []). { destruct (nz_rows (real_table m)) as [|i l] eqn:E; [reflexivity|]. exfalso. apply HR. assert (I : In i (nz_rows (real_table m))) by (rewrite E; left; reflexivity). apply in_nz_rows in I. destruct I as (A & j & B & C). exists i, j. tauto. }
  rewrite E in S1. cbn [length] in S1. rewrite get_chi2_64_kept. unfold chi2_contingency64, fcells. rewrite S1. cbn [idx seq list_prod existsb Nat.mul Nat.eqb]. reflexivity.
Qed.

(** the order in which numpy adds, the order of the rows and columns, empty rows and columns, and swapping rows with columns change
    the result by rounding errors only *)
Theorem C88_order : forall add_up add_up' m I J c c' chi, any_order add_up -> any_order add_up' -> count_table64 m -> has_records (real_table m) -> moderate (real_table m) ->
  rearrangement (real_table m) I J -> get_chi2_64 add_up m = Ok c -> get_chi2_64 add_up' (fsub m I J) = Ok c' -> get_chi2 true (real_table m) Pearson = Ok chi ->
  Rabs (f2R c - f2R c') <= 2 * chi2_tol (real_table m) chi.
Proof.
  intros add_up add_up' m I J c c' chi AO AO' CT HR HM RR E E' X. set (T := real_table m) in *. change (real_table (fsub m I J)) with (submat T I J) in *.
  assert (CT' : count_table64 (fsub m I J)). { destruct RR as (_ & _ & RI & RJ & _). intros i j Hi Hj. cbn [fsub fr fc fe] in *. apply CT; [apply RI, nth_In, Hi|apply RJ, nth_In, Hj]. }
  assert (LI : (length I <= nr T)%nat). { destruct RR as (NI & _ & BI & _ & _). rewrite <- (idx_length (nr T)). apply NoDup_incl_length; [exact NI|]. intros i Hi. apply in_idx, BI, Hi. }
  assert (LJ : (length J <= nc T)%nat). { destruct RR as (_ & NJ & _ & BJ & _). rewrite <- (idx_length (nc T)). apply NoDup_incl_length; [exact NJ|]. intros i Hi. apply in_idx, BJ, Hi. }
  assert (KL : INR (length I * length J) <= INR (nr T * nc T)) by (apply le_INR, Nat.mul_le_mono; assumption).
  assert (HR' : has_records (submat T I J)).
  { destruct HR as (i & j & Hi & Hj & N). destruct RR as (_ & _ & _ & _ & C). destruct (C i j Hi Hj N) as [I1 J1]. apply (In_nth _ _ 0%nat) in I1. destruct I1 as (p & Hp & EP). apply (In_nth _ _ 0%nat) in J1. destruct J1 as (q & Hq & EQ). exists p, q. cbn [nr nc el submat]. rewrite EP, EQ. tauto. }
  destruct (C88_chi2_rounding add_up m AO CT HR HM) as (c1 & chi1 & H1 & H2 & H3 & H4 & H5 & H6). fold T in H2, H6.
  destruct HM as [M1 M2]. fold T in M1, M2.
  destruct (C88_chi2_rounding add_up' (fsub m I J) AO' CT' HR') as (c2 & chi2 & G1 & G2 & G3 & G4 & G5 & G6).
  { split; change (real_table (fsub m I J)) with (submat T I J); [rewrite (sub_matsum _ _ _ RR); exact M1|cbn [nr nc submat]; lra]. }
  change (real_table (fsub m I J)) with (submat T I J) in G2, G6. rewrite (get_chi2_rearr _ _ _ _ _ RR) in G2.
  assert (c1 = c) by congruence. assert (c2 = c') by congruence. assert (chi1 = chi) by congruence. assert (chi2 = chi) by congruence. subst.
  assert (TL : chi2_tol (submat T I J) chi <= chi2_tol T chi). { unfold chi2_tol. rewrite (sub_matsum _ _ _ RR). cbn [nr nc submat]. pose proof u53_pos. apply Rmult_le_compat_l; [lra|]. apply Rplus_le_compat_l, Rmult_le_compat_r; lra. }
  eapply Rle_trans; [apply (rabs_split _ chi)|]. rewrite (Rabs_minus_sym chi). lra.
Qed.
Theorem C88_swapped : forall add_up add_up' m c c' chi, any_order add_up -> any_order add_up' -> count_table64 m -> has_records (real_table m) -> moderate (real_table m) ->
  get_chi2_64 add_up m = Ok c -> get_chi2_64 add_up' (ftransp m) = Ok c' -> get_chi2 true (real_table m) Pearson = Ok chi ->
  Rabs (f2R c - f2R c') <= 2 * chi2_tol (real_table m) chi.
Proof.
  intros add_up add_up' m c c' chi AO AO' CT HR HM E E' X. set (T := real_table m) in *.
  assert (TE : real_table (ftransp m) = transp T) by reflexivity.
  assert (MT : matsum (transp T) = matsum T) by (rewrite (matsum_colsum T); reflexivity).
  destruct (C88_chi2_rounding add_up m AO CT HR HM) as (c1 & chi1 & H1 & H2 & H3 & H4 & H5 & H6). fold T in H2, H6.
  destruct (C88_chi2_rounding add_up' (ftransp m) AO') as (c2 & chi2 & G1 & G2 & G3 & G4 & G5 & G6).
  { intros i j Hi Hj. apply CT; assumption. }
  { destruct HR as (i & j & Hi & Hj & N). exists j, i. cbn in *. tauto. }
  { destruct HM as [M1 M2]. fold T in M1, M2. rewrite TE. split; [rewrite MT; exact M1|cbn [nr nc transp]; rewrite Nat.mul_comm; exact M2]. }
  rewrite TE in G2, G6. rewrite get_chi2_transp in G2. assert (c1 = c) by congruence. assert (c2 = c') by congruence. assert (chi1 = chi) by congruence. assert (chi2 = chi) by congruence. subst.
  assert (TL : chi2_tol (transp T) chi = chi2_tol T chi) by (unfold chi2_tol; rewrite MT; cbn [nr nc transp]; rewrite (Nat.mul_comm (nc T)); reflexivity).
  eapply Rle_trans; [apply (rabs_split _ chi)|]. rewrite (Rabs_minus_sym chi). lra.
Qed.

(** independent tables give exactly 0 up to 94906265 records (the square of the number of records is at most 2^53) ... *)
Theorem C88_independent : forall add_up m, any_order add_up -> count_table64 m -> has_records (real_table m) -> INR (fr m * fc m) <= 1048576 ->
  independent_table (real_table m) -> matsum (real_table m) <= 94906265 -> exists c, get_chi2_64 add_up m = Ok c /\ ffin c = true /\ f2R c = 0.
Proof.
  intros add_up m AO CT HR HK IT HN. pose proof (records_one m CT HR). apply chi2_independent_zero; try assumption; [lra|]. apply Rle_trans with (94906265 * 94906265); [apply Rmult_le_compat; lra|lra].
Qed.
(** ... and less than 1/2 up to 2^46 *)
Theorem C88_independent_small : forall add_up m, any_order add_up -> count_table64 m -> has_records (real_table m) -> moderate (real_table m) ->
  independent_table (real_table m) -> exists c, get_chi2_64 add_up m = Ok c /\ ffin c = true /\ 0 <= f2R c <= 51 * u53 * matsum (real_table m) /\ f2R c < 1 / 2.
Proof.
  intros add_up m AO CT HR HM IT. destruct (C88_chi2_rounding add_up m AO CT HR HM) as (c & chi & H1 & H2 & H3 & H4 & H5 & H6). exists c. split; [exact H1|]. split; [exact H3|].
  assert (Z : chi = 0).
  { rewrite (get_chi2_closed _ _ _ (T_nonneg m CT) HR) in H2. inversion H2 as [E]. unfold stat. destruct (Nat.eqb _ 0); [reflexivity|]. apply lsum_0. intros i Hi. apply lsum_0. intros j Hj. apply in_nz_rows in Hi. apply in_nz_cols in Hj.
    pose proof (IT i j (proj1 Hi) (proj1 Hj)) as I. fold (expected (real_table m) i j) in I. unfold stat_term. rewrite <- I. destruct (Nat.eqb _ 1); unfold pd_term; [|unfold Rdiv; ring].
    rewrite yates_cl. replace (el (real_table m) i j - el (real_table m) i j) with 0 by ring. replace (cl 0) with 0 by (unfold cl, Rmax, Rmin; repeat (destruct (Rle_dec _ _)); lra). unfold Rdiv. ring. }
  rewrite Z in H6. unfold chi2_tol in H6. rewrite Rminus_0_r, Rabs_pos_eq in H6 by exact H4. rewrite Rmult_0_r, Rplus_0_r in H6. destruct HM as [M1 _]. assert (f2R c <= 51 * u53 * matsum (real_table m)) by lra. split; [lra|]. unfold u53 in *. lra.
Qed.

(** numpy's simplest order of addition *)
Definition in_turn (k : site) (l : list f64) : f64 := fold_right fplus fzero l.
Lemma in_turn_ok : any_order in_turn.
Proof. intros k l. unfold in_turn. induction l as [|x l IH]; cbn [fold_right]; [constructor|]. change (x :: l) with ([x] ++ l). apply added_app; [constructor|exact IH]. Qed.
Definition ftab (rows : list (list Z)) (c : nat) : fmat := mkF (length rows) c (fun i j => ofZ (nth j (nth i rows []) 0%Z)).
Definition good_row (l : list Z) : bool := forallb (fun z => (0 <=? z)%Z && (z <=? 2 ^ 53)%Z) l.
Lemma ftab_ok : forall rows c, forallb good_row rows = true -> forallb (fun r => Nat.eqb (length r) c) rows = true -> count_table64 (ftab rows c) /\ mat_eq (real_table (ftab rows c)) (tab rows c).
Proof.
  intros rows c H L.
  assert (K : forall i j, (i < length rows)%nat -> (j < c)%nat -> (0 <= nth j (nth i rows []) 0 <= 2 ^ 53)%Z).
  { intros i j Hi Hj. rewrite forallb_forall in H, L. pose proof (nth_In rows [] Hi) as I. specialize (H _ I). specialize (L _ I). apply Nat.eqb_eq in L. unfold good_row in H. rewrite forallb_forall in H. specialize (H (nth j (nth i rows []) 0%Z)). rewrite andb_true_iff, !Z.leb_le in H. apply H, nth_In. lia. }
  split.
  - intros i j Hi Hj. specialize (K i j Hi Hj). destruct (ofZ_spec (nth j (nth i rows []) 0%Z)) as [V F]; [lia|]. split; [exact F|]. exists (Z.to_nat (nth j (nth i rows []) 0%Z)). cbn [ftab fe]. rewrite V, INR_IZR_INZ. f_equal. lia.
  - split; [reflexivity|]. split; [reflexivity|]. intros i j Hi Hj. cbn [real_table ftab fe el tab] in *. apply ofZ_spec. specialize (K i j Hi Hj). lia.
Qed.
(** 110907045 records, rows in the proportion 6271 : 584: exactly independent, and the computed statistic is positive *)
Definition t88 : list (list Z) := [[11670331; 81805195; 7982983]; [1086824; 7618280; 743432]]%Z.
Theorem C88_independent_noise : independent_table (tab t88 3) /\ match get_chi2_64 in_turn (ftab t88 3) with Ok c => flt fzero c | _ => false end = true.
Proof.
  split; [|vm_compute; reflexivity]. intros i j Hi Hj. cbn [tab nr nc] in Hi, Hj. change (length t88) with 2%nat in Hi.
  assert (M : matsum (tab t88 3) = 110907045) by (unfold matsum, rowsum, lsum, tab, t88; cbn [nr nc el length seq fold_right nth]; lra).
  rewrite M. unfold rowsum, colsum, lsum, tab, t88. cbn [nr nc el length seq fold_right].
  destruct i as [|[|i]]; [| |lia]; (destruct j as [|[|[|j]]]; [| | |lia]); cbn [nth]; lra.
Qed.

(** * C89 *)
(** what is assumed of the computed chi2 of the bivariate normal distribution with correlation x, for a given number of records and shape:
    0 at correlation 0 (bivariate.py:158-161 subtracts the same array), finite and neither negative nor absurdly large or small *)
Definition sane (h : f64 -> f64) : Prop := h fzero = fzero /\ b2 (-200) <= f2R (h fone) /\ forall x, unit_interval x -> ffin (h x) = true /\ 0 <= f2R (h x) <= b2 200.
Definition noise_of (T : mat) (noise_correction : bool) : Z := if noise_correction then estimate_simple_ndof T else 0%Z.
Definition max_of (T : mat) : R := matsum T * IZR (Z.min (Z.of_nat (nr T) - 1) (Z.of_nat (nc T) - 1)).
(** the function whose root is returned: pedestal + chi2(x) * scale - chi2 *)
Definition equation64 (h : f64 -> f64) (M p chi2 : f64) : f64 -> f64 := objective64 h M p (h fone) chi2.

Lemma shape_facts : forall add_up m b, any_order add_up -> count_table64 m -> has_records (real_table m) -> moderate (real_table m) -> (2 <= fr m)%nat -> (2 <= fc m)%nat -> max_of (real_table m) <= 9007199254740992 ->
  let k := Z.min (Z.of_nat (fr m) - 1) (Z.of_nat (fc m) - 1) in
  ffin (fmult (ftot add_up m) (ofZ k)) = true /\ f2R (fmult (ftot add_up m) (ofZ k)) = max_of (real_table m) /\ 1 <= max_of (real_table m) /\
  (0 <= noise_of (real_table m) b)%Z /\ f2R (ofZ (noise_of (real_table m) b)) = IZR (noise_of (real_table m) b) /\ ffin (ofZ (noise_of (real_table m) b)) = true /\
  (if b then estimate_simple_ndof64 add_up m else 0%Z) = noise_of (real_table m) b.
Proof.
  intros add_up m b AO CT HR HM R2 C2 HX. pose proof (records_one m CT HR) as N1. destruct HM as [MN MK]. assert (HN : 1 <= matsum (real_table m) <= 70368744177664) by (split; assumption).
  rewrite (ndof_exact add_up m AO CT HN). set (T := real_table m) in *.
  destruct (ftot_val add_up AO m CT HN) as [[FT _] VT]. fold T in VT.
  intros k. assert (K1 : (1 <= k)%Z) by lia.
  assert (KB : (k <= 1048576)%Z).
  { assert (INR (fr m) <= 1048576). { eapply Rle_trans; [|exact MK]. apply le_INR. cbn [nr nc T real_table]. nia. } rewrite INR_IZR_INZ in H. apply le_IZR in H. lia. }
  assert (P53 : (2 ^ 53 = 9007199254740992)%Z) by reflexivity.
  destruct (ofZ_spec k) as [VK FK]; [rewrite P53; lia|].
  assert (ME : f2R (ftot add_up m) * f2R (ofZ k) = max_of T) by (rewrite VT, VK; reflexivity).
  assert (M0 : 1 <= max_of T). { unfold max_of. fold k. cbn [nr nc T real_table]. fold k. assert (1 <= IZR k) by (apply IZR_le; exact K1). fold T. apply Rle_trans with (1 * 1); [lra|apply Rmult_le_compat; lra]. }
  assert (MF : fmt (max_of T)).
  { destruct (ftot_val add_up AO m CT HN) as [[_ (n & EN)] _]. rewrite <- ME, EN, VK, INR_IZR_INZ, <- mult_IZR. apply fmt_IZR. rewrite P53. rewrite <- ME, EN, VK, INR_IZR_INZ, <- mult_IZR in HX, M0. apply le_IZR in HX. apply le_IZR in M0. lia. }
  destruct (fmult_spec (ftot add_up m) (ofZ k) 53 FT FK ltac:(lia)) as [VM FM]; [rewrite ME, Rabs_pos_eq by lra; change (b2 53) with 9007199254740992; exact HX|]. rewrite ME, (rnd_id _ MF) in VM.
  assert (PB : (0 <= noise_of T b <= 2 ^ 40)%Z).
  { change (2 ^ 40)%Z with 1099511627776%Z. unfold noise_of. destruct b; [|lia]. unfold estimate_simple_ndof. cbv zeta. assert (KC : (Z.of_nat (nr T * nc T) <= 1048576)%Z) by (rewrite INR_IZR_INZ in MK; apply le_IZR in MK; exact MK). destruct (Z.ltb_spec (Z.of_nat (nr T * nc T) - Z.of_nat (nr T + nc T) + 2 - 1 - Z.of_nat (zero_expected T)) 0); cbn [nr nc T real_table] in *; lia. }
  destruct (ofZ_spec (noise_of T b)) as [VP FP]; [rewrite P53; change (2 ^ 40)%Z with 1099511627776%Z in PB; lia|].
  split; [exact FM|]. split; [exact VM|]. split; [exact M0|]. split; [lia|]. split; [exact VP|]. split; [exact FP|reflexivity].
Qed.

(** For every table of counts with at least two rows and two columns: what phik_from_hist2d returns in binary64 lies in [0,1]; it is 0
    exactly when the computed chi2 does not exceed the noise pedestal (or the maximum does not), 1 when it reaches the maximum, and else a root of the
    computed equation, where the computed chi2 is within rounding errors of the exact one, and pedestal and maximum are exact. A ValueError
    needs a table whose exact chi2 is within rounding errors of the maximum, and a RuntimeError comes from brentq's iteration limit. *)
Theorem C89_phik_hist2d : forall add_up chi2_rho m b, any_order add_up -> count_table64 m -> has_records (real_table m) -> moderate (real_table m) ->
  (2 <= fr m)%nat -> (2 <= fc m)%nat -> max_of (real_table m) <= 9007199254740992 -> sane (chi2_rho (ftot add_up m) (fr m) (fc m)) ->
  exists chi c M p, get_chi2 true (real_table m) Pearson = Ok chi /\ 0 <= f2R c /\ Rabs (f2R c - chi) <= chi2_tol (real_table m) chi /\
    f2R M = max_of (real_table m) /\ f2R p = IZR (noise_of (real_table m) b) /\
    match phik_from_hist2d_64 add_up chi2_rho m b with
    | Ok r => unit_interval r /\ ((f2R c <= f2R p \/ f2R M <= f2R p) /\ r = fzero \/ f2R M <= f2R c /\ r = fone \/
                                  f2R p < f2R c < f2R M /\ is_root (equation64 (chi2_rho (ftot add_up m) (fr m) (fc m)) M p c) r)
    | Raise RuntimeError => True
    | Raise ValueError => f2R M * (1 - / 1125899906842624) - chi2_tol (real_table m) chi < chi
    | Raise _ => False
    end.
Proof.
  intros add_up chi2_rho m b AO CT HR HM R2 C2 HX (S1 & S2 & S3). destruct (C88_chi2_rounding add_up m AO CT HR HM) as (c & chi & H1 & H2 & H3 & H4 & H5 & H6).
  destruct (shape_facts add_up m b AO CT HR HM R2 C2 HX) as (FM & VM & M0 & PB & VP & FP & NE). cbv zeta in FM, VM. set (T := real_table m) in *. set (k := Z.min (Z.of_nat (fr m) - 1) (Z.of_nat (fc m) - 1)) in *. set (h := chi2_rho (ftot add_up m) (fr m) (fc m)) in *.
  unfold phik_from_hist2d_64. rewrite H1. cbn [rbind]. cbv zeta. rewrite NE. fold k. fold h.
  exists chi, c, (fmult (ftot add_up m) (ofZ k)), (ofZ (noise_of T b)). split; [exact H2|]. split; [exact H4|]. split; [exact H6|]. split; [exact VM|]. split; [exact VP|].
  pose proof (C86_phik_in_unit_interval h (fmult (ftot add_up m) (ofZ k)) (ofZ (noise_of T b)) (h fone) c FM) as C86.
  assert (Q1 : 1 <= f2R (fmult (ftot add_up m) (ofZ k)) <= b2 200). { rewrite VM. split; [exact M0|]. apply Rle_trans with (b2 53); [change (b2 53) with 9007199254740992; exact HX|apply bpow_le; lia]. }
  assert (Q2 : 0 <= f2R (ofZ (noise_of T b))) by (rewrite VP; apply IZR_le; lia).
  specialize (C86 Q1 FP Q2 (proj1 (S3 fone in01_1)) S2 H3 S1 eq_refl S3).
  destruct (phik_from_chi2_64 _ _ _ _) as [r|[]]; try exact C86. apply Rabs_le_inv in H6. lra.
Qed.

(** independent data: exactly 0, with the noise correction (when the pedestal is not 0) or up to 94906265 records *)
Theorem C89_independent : forall add_up chi2_rho m b, any_order add_up -> count_table64 m -> has_records (real_table m) -> moderate (real_table m) ->
  (2 <= fr m)%nat -> (2 <= fc m)%nat -> max_of (real_table m) <= 9007199254740992 -> independent_table (real_table m) ->
  (1 <= noise_of (real_table m) b)%Z \/ matsum (real_table m) <= 94906265 ->
  phik_from_hist2d_64 add_up chi2_rho m b = Ok fzero.
Proof.
  intros add_up chi2_rho m b AO CT HR HM R2 C2 HX IT HH. destruct (shape_facts add_up m b AO CT HR HM R2 C2 HX) as (FM & VM & M0 & PB & VP & FP & NE). cbv zeta in FM, VM. set (k := Z.min (Z.of_nat (fr m) - 1) (Z.of_nat (fc m) - 1)) in *.
  assert (X : exists c, get_chi2_64 add_up m = Ok c /\ ffin c = true /\ f2R c <= IZR (noise_of (real_table m) b) /\ f2R c < 1).
  { destruct HH as [HP|HN].
    - destruct (C88_independent_small add_up m AO CT HR HM IT) as (c & A & B & _ & C). exists c. apply IZR_le in HP. repeat split; try assumption; lra.
    - destruct (C88_independent add_up m AO CT HR (proj2 HM) IT HN) as (c & A & B & C). exists c. apply IZR_le in PB. repeat split; try assumption; lra. }
  destruct X as (c & A & B & C & D). unfold phik_from_hist2d_64. rewrite A. cbn [rbind]. cbv zeta. rewrite NE. fold k. unfold phik_from_chi2_64.
  assert (E1 : flt (fmult (ftot add_up m) (ofZ k)) c = false). { destruct (flt _ c) eqn:E; [|reflexivity]. apply flt_spec in E; try assumption. rewrite VM in E. lra. }
  rewrite E1. cbn [andb]. cbv zeta. assert (E2 : fle c (ofZ (noise_of (real_table m) b)) = true) by (apply fle_spec; try assumption; rewrite VP; exact C). rewrite E2. reflexivity.
Qed.


(** the hypotheses are met: a 2 by 3 table of 16 records *)
Definition t16 : list (list Z) := [[3; 1; 2]; [0; 4; 6]]%Z.
Lemma t16_ok : count_table64 (ftab t16 3) /\ has_records (real_table (ftab t16 3)) /\ moderate (real_table (ftab t16 3)) /\ max_of (real_table (ftab t16 3)) = 16 /\ rearrangement (real_table (ftab t16 3)) [1; 0]%nat [2; 0; 1]%nat.
Proof.
  destruct (ftab_ok t16 3) as [CT ME]; try reflexivity. destruct ME as (E1 & E2 & E3).
  assert (MS : matsum (real_table (ftab t16 3)) = 16). { rewrite (matsum_eq _ (tab t16 3)) by (split; [exact E1|split; [exact E2|exact E3]]). unfold matsum, rowsum, lsum, tab, t16. cbn [nr nc el length seq fold_right nth]. lra. }
  split; [exact CT|]. split; [|split; [|split]].
  - exists 0%nat, 0%nat. split; [cbn; lia|]. split; [cbn; lia|]. rewrite E3 by (cbn; lia). cbn. lra.
  - split; [rewrite MS; lra|]. cbn [nr nc real_table ftab fr fc]. change (length t16 * 3)%nat with 6%nat. cbn. lra.
  - unfold max_of. rewrite MS. cbn [nr nc real_table ftab fr fc]. change (Z.min (Z.of_nat (length t16) - 1) (Z.of_nat 3 - 1)) with 1%Z. lra.
  - split; [repeat constructor; cbn; lia|]. split; [repeat constructor; cbn; lia|]. cbn [nr nc real_table ftab fr fc]. change (length t16) with 2%nat. split; [intros i [<-|[<-|[]]]; lia|]. split; [intros i [<-|[<-|[<-|[]]]]; lia|].
    intros i j Hi Hj _. split; [destruct i as [|[|i]]; [| |lia]; cbn; auto|destruct j as [|[|[|j]]]; [| | |lia]; cbn; auto].
Qed.
Example C88_hyps : exists c chi, get_chi2_64 in_turn (ftab t16 3) = Ok c /\ get_chi2 true (real_table (ftab t16 3)) Pearson = Ok chi /\ Rabs (f2R c - chi) <= chi2_tol (real_table (ftab t16 3)) chi.
Proof. destruct t16_ok as (A & B & C & _). destruct (C88_chi2_rounding in_turn _ in_turn_ok A B C) as (c & chi & H1 & H2 & H3 & H4 & H5 & H6). exists c, chi. auto. Qed.
Example C88_order_hyps : exists c c' chi, get_chi2_64 in_turn (ftab t16 3) = Ok c /\ get_chi2_64 in_turn (fsub (ftab t16 3) [1; 0]%nat [2; 0; 1]%nat) = Ok c' /\ get_chi2 true (real_table (ftab t16 3)) Pearson = Ok chi /\ Rabs (f2R c - f2R c') <= 2 * chi2_tol (real_table (ftab t16 3)) chi.
Proof.
  destruct t16_ok as (A & B & C & _ & D). destruct (C88_chi2_rounding in_turn _ in_turn_ok A B C) as (c & chi & H1 & H2 & _).
  destruct (get_chi2_64 in_turn (fsub (ftab t16 3) [1; 0]%nat [2; 0; 1]%nat)) as [c'|] eqn:E.
  - exists c, c', chi. repeat split; try assumption. eapply (C88_order in_turn in_turn); try eassumption; exact in_turn_ok.
  - exfalso. assert (X : match get_chi2_64 in_turn (fsub (ftab t16 3) [1; 0]%nat [2; 0; 1]%nat) with Ok _ => true | _ => false end = true) by (vm_compute; reflexivity). rewrite E in X. discriminate.
Qed.
Lemma sane_id : sane (fun x => x).
Proof. split; [reflexivity|]. split; [destruct fone_val as [V _]; rewrite V; apply Rle_trans with (b2 0); [apply bpow_le; lia|change (b2 0) with 1; lra]|]. intros x [F B]. split; [exact F|]. split; [lra|]. apply Rle_trans with (b2 0); [change (b2 0) with 1; lra|apply bpow_le; lia]. Qed.
(** with the correlation itself as the chi2 of the bivariate normal distribution: the run returns a number strictly between 0 and 1 *)
Example C89_hyps : sane (fun x => x) /\ match phik_from_hist2d_64 in_turn (fun _ _ _ x => x) (ftab t16 3) true with Ok r => flt fzero r && flt r fone | _ => false end = true.
Proof. split; [exact sane_id|vm_compute; reflexivity]. Qed.
(** the 110907045 independent records of above: 0 with the noise correction, although the computed chi2 is positive *)
Example C89_independent_hyps : phik_from_hist2d_64 in_turn (fun _ _ _ x => x) (ftab t88 3) true = Ok fzero.
Proof.
  destruct (ftab_ok t88 3 eq_refl eq_refl) as [CT ME]. destruct C88_independent_noise as [IT _].
  assert (MS : matsum (real_table (ftab t88 3)) = 110907045) by (rewrite (matsum_eq _ _ ME); unfold matsum, rowsum, lsum, tab, t88; cbn [nr nc el length seq fold_right nth]; lra).
  assert (HR : has_records (real_table (ftab t88 3))) by (apply matsum_pos_records; rewrite MS; lra).
  assert (HM : moderate (real_table (ftab t88 3))). { split; [rewrite MS; lra|]. cbn [nr nc real_table ftab fr fc]. change (length t88 * 3)%nat with 6%nat. cbn. lra. }
  assert (IT' : independent_table (real_table (ftab t88 3))). { intros i j Hi Hj. pose proof ME as (E1 & E2 & E3). rewrite (rowsum_eq _ _ i ME Hi), (colsum_eq _ _ j ME Hj), (matsum_eq _ _ ME), (E3 i j Hi Hj). apply IT; assumption. }
  apply C89_independent; try assumption; try exact in_turn_ok; try (cbn; lia).
  - unfold max_of. rewrite MS. cbn [nr nc real_table ftab fr fc]. change (Z.min (Z.of_nat (length t88) - 1) (Z.of_nat 3 - 1)) with 1%Z. lra.
  - left. unfold noise_of, estimate_simple_ndof. cbv zeta. assert (Z0 : zero_expected (real_table (ftab t88 3)) = 0%nat).
    { unfold zero_expected. destruct (Req_EM_T _ 0); [reflexivity|]. replace (filter _ _) with (@nil (nat * nat)); [reflexivity|]. symmetry. cbn [nr nc real_table ftab fr fc]. change (length t88) with 2%nat.
      assert (NZ : forall i j, (i < 2)%nat -> (j < 3)%nat -> reqb (expected (real_table (ftab t88 3)) i j) 0 = false).
      { intros i j Hi Hj. apply reqb_false. unfold expected. rewrite <- (IT' i j Hi Hj). destruct ME as (E1 & E2 & E3). rewrite (E3 i j Hi Hj). unfold tab, t88. cbn [el]. destruct i as [|[|i]]; [| |lia]; (destruct j as [|[|[|j]]]; [| | |lia]); cbn [nth]; lra. }
      cbn [idx seq list_prod map app filter fst snd]. rewrite !NZ by lia. reflexivity. }
    rewrite Z0. cbn [nr nc real_table ftab fr fc]. change (length t88) with 2%nat. cbn. lia.
Qed.
