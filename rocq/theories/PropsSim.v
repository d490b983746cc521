(** Properties C50-C54 and the simulation part of C44. *)
From Coq Require Import String ZArith List Bool Reals Lra Lia.
From Flocq Require Import Core.
Import ListNotations.
From Verif Require Import F64 Base RSum StatsModel SpecStats StatsProofs StatsProofs2 PropsStats SpecRcont RcontModel RcontProofs2 PropsRcont SimModel SpecSim SimProofs.
Open Scope list_scope.
Open Scope R_scope.

Section Props.
  Variable S : Type.
  Variable multinomial : Z -> list R -> S -> res (list Z) * S.
  Variable randint : Z -> Z -> S -> Z * S.
  Variables (libm_exp libm_log : f64 -> f64) (uninit : nat -> list Z) (ib0 : Z) (fuel : nat).
  Notation patefield := (sim_2d_data_patefield S randint libm_exp libm_log uninit ib0 fuel).
  Notation sim_data := (sim_data S multinomial randint libm_exp libm_log uninit ib0 fuel).
  Notation sim_chi2_distribution := (sim_chi2_distribution S multinomial randint libm_exp libm_log uninit ib0 fuel).
  Definition is_transposed_sample (data t : mat) : Prop :=
    count_table (nc data) (nr data) t /\ (forall j, (j < nc data)%nat -> rowsum t j = colsum data j) /\ (forall i, (i < nr data)%nat -> colsum t i = rowsum data i).

  Lemma table_transposed : forall data mt, nonneg_table data -> whole_totals data -> matsum data <= 2147483647 -> positive_rowsums data -> positive_colsums data ->
    is_table (nr data) (nc data) (rtot data) (ctot data) mt -> is_transposed_sample data (reshape (nc data) (nr data) mt).
  Proof.
    intros data mt HN WT SM PR PC (LE & NO & RS & CS). split; [apply reshape_counts; exact NO|]. split.
    - intros j Hj. specialize (CS j Hj). unfold rowsum at 1. cbn [nc el reshape]. rewrite <- (zsum_map_IZR (fun i => nth (j * nr data + i) mt 0%Z)).
      rewrite (map_ext _ (fun l => nth (l + j * nr data) mt 0%Z)) by (intros; f_equal; lia). rewrite CS. unfold ctot. rewrite (nth_indep _ 0%Z (to_int32 (ZnearestE (colsum data 0%nat)))) by (rewrite map_length, seq_length; exact Hj).
      rewrite (map_nth (fun i => to_int32 (ZnearestE (colsum data i)))), seq_nth by exact Hj. apply tot_val; [apply WT; exact Hj|apply cs_le; assumption].
    - intros i Hi. specialize (RS i Hi). unfold colsum at 1. cbn [nr el reshape]. rewrite <- (zsum_map_IZR (fun j => nth (j * nr data + i) mt 0%Z)).
      rewrite (map_ext _ (fun m => nth (i + m * nr data) mt 0%Z)) by (intros; f_equal; lia). rewrite RS. unfold rtot. rewrite (nth_indep _ 0%Z (to_int32 (ZnearestE (rowsum data 0%nat)))) by (rewrite map_length, seq_length; exact Hi).
      rewrite (map_nth (fun i => to_int32 (ZnearestE (rowsum data i)))), seq_nth by exact Hi. apply tot_val; [apply WT; exact Hi|apply rs_le; assumption].
  Qed.

  (** the seed actually used *)
  Definition used_seed (seed : option Z) (s : S) : Z * S := match seed with Some z => if (z =? 0)%Z then randint 0 NUMPY_INT_MAX s else (z, s) | None => randint 0 NUMPY_INT_MAX s end.
  Lemma patefield_unfold : forall data seed s, patefield true data seed s =
    (rmap (reshape (nc data) (nr data)) (call_patefield libm_exp libm_log uninit ib0 fuel (nr data) (nc data) (rtot data) (ctot data) (fst (used_seed seed s))), snd (used_seed seed s)).
  Proof.
    intros data seed s. unfold sim_2d_data_patefield, used_seed, rtot, ctot. cbn [negb]. destruct seed as [z|]; [destruct (z =? 0)%Z|]; [destruct (randint 0 NUMPY_INT_MAX s); reflexivity|reflexivity|destruct (randint 0 NUMPY_INT_MAX s); reflexivity].
  Qed.
  Lemma used_int32 : forall seed s, randint_ok randint -> match seed with Some z => int32 z | None => True end -> int32 (fst (used_seed seed s)).
  Proof.
    intros seed s RO H. pose proof (RO 0%Z NUMPY_INT_MAX s ltac:(reflexivity)) as B. assert (int32 (fst (randint 0 NUMPY_INT_MAX s))) by (unfold int32, int_min, int_max, NUMPY_INT_MAX in *; lia).
    unfold used_seed. destruct seed as [z|]; [destruct (z =? 0)%Z|]; assumption.
  Qed.
  Lemma call_int32 : forall nrow ncol rt ct sd, int32 sd -> call_patefield libm_exp libm_log uninit ib0 fuel nrow ncol rt ct sd =
    match rcont2 libm_exp libm_log fuel ib0 nrow ncol rt ct sd (uninit (nrow * ncol)%nat) with COk (mt, _) => Ok mt | CErr (IErr _) => Raise RuntimeError | CErr _ => Raise UndefinedBehaviour end.
  Proof. intros nrow ncol rt ct sd [A B]. unfold call_patefield. apply Z.leb_le in A, B. rewrite A, B. reflexivity. Qed.

  (** C50: whatever is returned is a sample with the totals of the transposed table ... *)
  Theorem C50_transposed : forall data seed s t s', (forall n, length (uninit n) = n) -> randint_ok randint -> match seed with Some z => int32 z | None => True end ->
    (2 <= nr data)%nat -> (2 <= nc data)%nat -> nonneg_table data -> whole_totals data -> positive_rowsums data -> positive_colsums data -> matsum data <= 2147483647 ->
    patefield true data seed s = (Ok t, s') -> is_transposed_sample data t.
  Proof.
    intros data seed s t s' UL RO SD R2 C2 HN WT PR PC SM H. rewrite patefield_unfold in H. pose proof (used_int32 seed s RO SD) as I. rewrite call_int32 in H by exact I.
    destruct (rcont2 _ _ _ _ _ _ _ _ _ _) as [[mt sd]|[| | |]] eqn:E; try discriminate. cbn [rmap] in H. injection H as <- _.
    apply table_transposed; try assumption. eapply rcont2_totals; [|apply UL|exact I|exact E]. apply tot_valid; auto.
  Qed.
  (** ... and up to a total of 46340 the call always returns one *)
  Theorem C50_succeeds : forall data seed s, (forall n, length (uninit n) = n) -> randint_ok randint -> match seed with Some z => int32 z | None => True end ->
    (2 <= nr data)%nat -> (2 <= nc data)%nat -> nonneg_table data -> whole_totals data -> positive_rowsums data -> positive_colsums data -> matsum data <= 46340 ->
    libm_ok libm_exp libm_log -> (2 <= fuel)%nat ->
    exists t s', patefield true data seed s = (Ok t, s') /\ is_transposed_sample data t.
  Proof.
    intros data seed s UL RO SD R2 C2 HN WT PR PC SM LM FU. assert (SM' : matsum data <= 2147483647) by lra. pose proof (used_int32 seed s RO SD) as I.
    destruct (rcont2_small libm_exp libm_log ib0 (nr data) (nc data) (rtot data) (ctot data) (fst (used_seed seed s)) (uninit (nr data * nc data)%nat) fuel) as (mt & sd & E & IT); try assumption; [apply tot_valid; auto|apply UL| |].
    - apply le_IZR. rewrite rtot_sum by assumption. exact SM.
    - exists (reshape (nc data) (nr data) mt), (snd (used_seed seed s)). rewrite patefield_unfold, call_int32 by exact I. rewrite E. split; [reflexivity|]. apply table_transposed; assumption.
  Qed.
  (** the documented claim fails for every table that is not square: the result does not even have the right shape *)
  Theorem C50_wrong_shape : forall cpp data seed s t s', nr data <> nc data -> patefield cpp data seed s = (Ok t, s') -> nr t <> nr data /\ nr t = nc data /\ nc t = nr data.
  Proof.
    intros [] data seed s t s' NE H; [|discriminate]. rewrite patefield_unfold in H. destruct (call_patefield _ _ _ _ _ _ _ _ _ _) as [mt|]; [|discriminate]. injection H as <- _. cbn. auto.
  Qed.

  (** C51 *)
  Theorem C51_seed_determines : forall cpp data z s1 s2, z <> 0%Z -> patefield cpp data (Some z) s1 = (fst (patefield cpp data (Some z) s2), s1).
  Proof.
    intros [] data z s1 s2 NZ; [|reflexivity]. rewrite !patefield_unfold. unfold used_seed. rewrite (proj2 (Z.eqb_neq _ _) NZ). reflexivity.
  Qed.
  Theorem C51_zero_is_no_seed : forall cpp data s, patefield cpp data (Some 0%Z) s = patefield cpp data None s.
  Proof. intros [] data s; [|reflexivity]. rewrite !patefield_unfold. reflexivity. Qed.

  (** a seed the extension module cannot convert to a C int is refused *)
  Theorem C51_seed_range : forall data z s, (z < -2147483648 \/ 2147483647 < z)%Z -> patefield true data (Some z) s = (Raise TypeError, s).
  Proof.
    intros data z s H. rewrite patefield_unfold. unfold used_seed. rewrite (proj2 (Z.eqb_neq z 0)) by lia. cbn [fst snd]. unfold call_patefield.
    assert (E : ((int_min <=? z) && (z <=? int_max))%Z = false) by (unfold int_min, int_max; apply andb_false_iff; rewrite !Z.leb_gt; lia). rewrite E. reflexivity.
  Qed.

  (** C52 *)
  Theorem C52_total_kept : forall m ndata s, multinomial_ok multinomial -> nonneg_table m -> has_records m ->
    exists t s', sim_2d_data S multinomial m ndata s = (Ok t, s') /\ count_table (nr m) (nc m) t /\
      ((0 < ndata)%Z -> matsum t = IZR ndata) /\ ((ndata <= 0)%Z -> whole (matsum m) -> matsum t = matsum m).
  Proof.
    intros m nd s MO HN HR. destruct (sim_2d_ok S multinomial MO m nd s HN HR) as (t & s' & E & C & T). exists t, s'. split; [exact E|]. split; [exact C|]. rewrite T.
    split; intros H; [rewrite (proj2 (Z.leb_gt _ _) H); reflexivity|]. intros W. rewrite (proj2 (Z.leb_le _ _) H). apply trunc_whole, W.
  Qed.
  Theorem C52_empty_table : forall m ndata s, matsum m = 0 -> sim_2d_data S multinomial m ndata s = (Raise ValueError, s).
  Proof. intros m nd s E. unfold sim_2d_data, mbind. rewrite sim_flat_zero by (rewrite lsum_ravel; exact E). reflexivity. Qed.

  (** C53: what is actually fixed *)
  Theorem C53_row_product_fixes_columns : forall cpp m s, multinomial_ok multinomial -> nonneg_table m -> positive_colsums m -> whole_totals m ->
    exists t s', sim_data cpp m "row_product_multinominal" s = (Ok t, s') /\ count_table (nr m) (nc m) t /\ same_colsums m t.
  Proof.
    intros cpp m s MO HN PC WT. destruct (product_axis0 S multinomial MO m s HN PC) as (t & s' & E & C & T). exists t, s'. split; [exact E|]. split; [exact C|]. split; [apply C|]. intros j Hj. rewrite T by exact Hj. apply trunc_whole, WT, Hj.
  Qed.
  Theorem C53_col_product_fixes_rows : forall cpp m s, multinomial_ok multinomial -> nonneg_table m -> positive_rowsums m -> whole_totals m ->
    exists t s', sim_data cpp m "col_product_multinominal" s = (Ok t, s') /\ count_table (nr m) (nc m) t /\ same_rowsums m t.
  Proof.
    intros cpp m s MO HN PC WT. destruct (product_axis1 S multinomial MO m s HN PC) as (t & s' & E & C & T). exists t, s'. split; [exact E|]. split; [exact C|]. split; [apply C|]. intros j Hj. rewrite T by exact Hj. apply trunc_whole, WT, Hj.
  Qed.
  (** an empty column (row) makes the simulation fail *)
  Theorem C53_empty_line_fails : forall cpp m s, multinomial_ok multinomial -> nonneg_table m ->
    ((exists j, (j < nc m)%nat /\ colsum m j = 0) -> exists s', sim_data cpp m "row_product_multinominal" s = (Raise ValueError, s')) /\
    ((exists i, (i < nr m)%nat /\ rowsum m i = 0) -> exists s', sim_data cpp m "col_product_multinominal" s = (Raise ValueError, s')).
  Proof.
    intros cpp m s MO HN. split; intros H; [apply (product_raises S multinomial MO m s 0)|apply (product_raises S multinomial MO m s 1)]; auto.
  Qed.

  (** C44 (simulation part) *)
  Theorem C44_unknown_simulation_method : forall cpp m method s, ~ known_method method -> sim_data cpp m method s = (Raise NotImplementedError, s).
  Proof.
    intros cpp m method s H. unfold SimModel.sim_data, known_method in *. simpl in H.
    repeat match goal with |- context [String.eqb method ?x] => destruct (String.eqb_spec method x) as [->|_]; [exfalso; tauto|] end. reflexivity.
  Qed.
  Theorem C44_no_extension : forall m s, sim_data false m "hypergeometric" s = (Raise NotImplementedError, s).
  Proof. reflexivity. Qed.

  (** every method on a table with whole positive totals *)
  Definition good_for (cpp : bool) (method : string) (m : mat) : Prop :=
    (2 <= nr m)%nat /\ (2 <= nc m)%nat /\ nonneg_table m /\ whole_totals m /\ positive_rowsums m /\ positive_colsums m /\
    (method = "hypergeometric"%string -> cpp = true /\ matsum m <= 46340 /\ libm_ok libm_exp libm_log /\ (2 <= fuel)%nat /\ (forall n, length (uninit n) = n) /\ randint_ok randint).
  Lemma good_records : forall cpp method m, good_for cpp method m -> has_records m.
  Proof. intros cpp method m (R2 & _ & _ & _ & PR & _). apply matsum_pos_records. unfold matsum. apply lsum_pos with (a := 0%nat); [intros i Hi; apply in_seq in Hi; apply Rlt_le, PR; lia|apply in_seq; lia|apply PR; lia]. Qed.
  Lemma whole_plus : forall a b, whole a -> whole b -> whole (a + b). Proof. intros a b (k & ->) (l & ->). exists (k + l)%nat. rewrite plus_INR. reflexivity. Qed.
  Lemma whole_matsum : forall m, whole_totals m -> whole (matsum m).
  Proof.
    intros m [W _]. unfold matsum. assert (G : forall l, (forall i, In i l -> (i < nr m)%nat) -> whole (lsum (rowsum m) l)).
    { induction l as [|i l IH]; intros H; [exists 0%nat; reflexivity|]. rewrite lsum_cons. apply whole_plus; [apply W, H; left; reflexivity|apply IH; intros; apply H; right; assumption]. }
    apply G. intros i Hi. apply in_seq in Hi. lia.
  Qed.
  Theorem sim_data_ok : forall cpp method m s, multinomial_ok multinomial -> known_method method -> good_for cpp method m ->
    exists t s', sim_data cpp m method s = (Ok t, s') /\ simulated_by method m t.
  Proof.
    intros cpp method m s MO KM G. pose proof (good_records _ _ _ G) as HR. destruct G as (R2 & C2 & HN & WT & PR & PC & HY). simpl in KM. destruct KM as [<-|[<-|[<-|[<-|[]]]]].
    - destruct (C52_total_kept m 0 s MO HN HR) as (t & s' & E & C & _ & T). exists t, s'. split; [exact E|]. left. split; [reflexivity|]. split; [exact C|]. apply T; [lia|]. apply whole_matsum, WT.
    - destruct HY as (-> & SM & LM & FU & UL & RO); [reflexivity|]. destruct (C50_succeeds m None s) as (t & s' & E & T); auto. exists t, s'. split; [exact E|]. right. right. right. split; [reflexivity|exact T].
    - destruct (C53_row_product_fixes_columns cpp m s) as (t & s' & E & T); auto. exists t, s'. split; [exact E|]. right. left. split; [reflexivity|exact T].
    - destruct (C53_col_product_fixes_rows cpp m s) as (t & s' & E & T); auto. exists t, s'. split; [exact E|]. right. right. left. split; [reflexivity|exact T].
  Qed.
  Lemma simulated_chi2 : forall clamp cpp method m t l, good_for cpp method m -> simulated_by method m t -> exists x, get_chi2 clamp t l = Ok x.
  Proof.
    intros clamp cpp method m t l G H. pose proof (good_records _ _ _ G) as HR. destruct G as (R2 & C2 & HN & WT & PR & PC & HY). pose proof (matsum_pos m HN HR) as P.
    assert (CT : nonneg_table t /\ 0 < matsum t).
    { destruct H as [(_ & C & T)|[(_ & C & T)|[(_ & C & T)|(_ & C & T & _)]]]; (split; [eapply count_nonneg; exact C|]).
      - rewrite T. exact P.
      - rewrite matsum_colsum. rewrite matsum_colsum in P. destruct T as [E T]. rewrite E. rewrite (lsum_ext _ _ (colsum m)); [exact P|]. intros j Hj. apply in_seq in Hj. apply T. lia.
      - unfold matsum in *. destruct T as [E T]. rewrite E. rewrite (lsum_ext _ _ (rowsum m)); [exact P|]. intros j Hj. apply in_seq in Hj. apply T. lia.
      - rewrite matsum_colsum in P. unfold matsum. destruct C as (-> & _). rewrite (lsum_ext _ _ (colsum m)); [exact P|]. intros j Hj. apply in_seq in Hj. apply T. lia. }
    destruct CT as [N PT]. eexists. apply get_chi2_closed; [exact N|]. apply matsum_pos_records, PT.
  Qed.
  Lemma fit_ok : forall clamp cpp method m l s, multinomial_ok multinomial -> known_method method -> good_for cpp method m ->
    exists x s', simulate_and_fit S multinomial randint libm_exp libm_log uninit ib0 fuel cpp clamp m method l s = (Ok x, s') /\ exists t, simulated_by method m t /\ get_chi2 clamp t l = Ok x.
  Proof.
    intros clamp cpp method m l s MO KM G. destruct (sim_data_ok cpp method m s MO KM G) as (t & s' & E & SB). destruct (simulated_chi2 clamp cpp method m t l G SB) as (x & EX).
    exists x, s'. unfold simulate_and_fit, mbind. rewrite E. unfold lift. rewrite EX. split; [reflexivity|]. exists t. auto.
  Qed.

  (** C54 *)
  Theorem C54_distribution : forall clamp cpp method values nsim l (alt : bool) workers s, multinomial_ok multinomial -> known_method method ->
    let m := if alt then values else get_dependent_frequency_estimates values in
    good_for cpp method m ->
    exists chi2s s', sim_chi2_distribution cpp clamp values nsim l method alt workers s = (Ok chi2s, s') /\ Z.of_nat (length chi2s) = Z.max 0 nsim /\
      forall x, In x chi2s -> exists t, simulated_by method m t /\ get_chi2 clamp t l = Ok x.
  Proof.
    intros clamp cpp method values nsim l alt workers s MO KM m G. unfold SimModel.sim_chi2_distribution. fold m.
    set (P := fun (_ : nat) x => exists t, simulated_by method m t /\ get_chi2 clamp t l = Ok x).
    assert (FIN : forall chi2s, Forall2 P (seq 0 (Z.to_nat nsim)) chi2s -> Z.of_nat (length chi2s) = Z.max 0 nsim /\ forall x, In x chi2s -> exists t, simulated_by method m t /\ get_chi2 clamp t l = Ok x).
    { intros chi2s F. split.
      - assert (L : length chi2s = length (seq 0 (Z.to_nat nsim))) by (clear - F; induction F; cbn; congruence). rewrite L, seq_length. lia.
      - clear - F. induction F as [|a x l0 r H F IH]; intros y Hy; [destruct Hy|]. destruct Hy as [<-|Hy]; [exact H|apply IH, Hy]. }
    destruct workers as [w|].
    - assert (E : exists bs, mapM (fun k => fst (simulate_and_fit S multinomial randint libm_exp libm_log uninit ib0 fuel cpp clamp m method l (w k))) (seq 0 (Z.to_nat nsim)) = Ok bs /\ Forall2 P (seq 0 (Z.to_nat nsim)) bs).
      { generalize (seq 0 (Z.to_nat nsim)). induction l0 as [|k l0 IH]; [exists []; split; [reflexivity|constructor]|]. destruct IH as (bs & E & F). destruct (fit_ok clamp cpp method m l (w k) MO KM G) as (x & s' & E1 & H).
        exists (x :: bs). cbn [mapM]. rewrite E1. cbn [fst rbind]. rewrite E. split; [reflexivity|]. constructor; assumption. }
      destruct E as (bs & E & F). exists bs, s. unfold lift. rewrite E. split; [reflexivity|]. apply FIN, F.
    - destruct (mmap_ok S nat R (fun _ => simulate_and_fit S multinomial randint libm_exp libm_log uninit ib0 fuel cpp clamp m method l) P (seq 0 (Z.to_nat nsim))) with (s := s) as (bs & s' & E & F).
      + intros k _ s0. destruct (fit_ok clamp cpp method m l s0 MO KM G) as (x & s1 & E1 & H). exists x, s1. auto.
      + exists bs, s'. split; [exact E|]. apply FIN, F.
  Qed.
  (** the frequency estimates of a table keep its totals, so the hypothesis is about the data *)
  Theorem C54_estimates_keep_totals : forall cpp method values, good_for cpp method values -> good_for cpp method (get_dependent_frequency_estimates values).
  Proof.
    intros cpp method m G. pose proof (good_records _ _ _ G) as HR. destruct G as (R2 & C2 & HN & WT & PR & PC & HY). pose proof (matsum_pos m HN HR) as P.
    destruct (C18_expected_totals m P) as (E1 & E2 & ER & EC & EM & EN). cbn zeta in *.
    split; [exact R2|]. split; [exact C2|]. split; [apply EN, HN|]. split; [split; intros i Hi; [rewrite ER|rewrite EC]; apply WT; exact Hi|]. split; [intros i Hi; rewrite ER; apply PR; exact Hi|]. split; [intros i Hi; rewrite EC; apply PC; exact Hi|]. rewrite EM. exact HY.
  Qed.
End Props.
Print Assumptions C50_transposed. Print Assumptions C50_succeeds. Print Assumptions C50_wrong_shape. Print Assumptions C51_seed_determines. Print Assumptions C51_zero_is_no_seed.
Print Assumptions C52_total_kept. Print Assumptions C53_row_product_fixes_columns. Print Assumptions C53_col_product_fixes_rows. Print Assumptions C54_distribution. Print Assumptions C44_unknown_simulation_method.

(** * Instances *)
(** a possible draw: everything falls into the first cell *)
Definition first_cell (n : Z) (p : list R) (s : Z) : res (list Z) * Z := (Ok (match p with [] => [] | _ :: p' => n :: map (fun _ => 0%Z) p' end), s).
Lemma first_cell_ok : multinomial_ok first_cell.
Proof.
  intros n p s Hn HP HS. destruct p as [|x p]; [cbn in HS; lra|]. eexists _, _. split; [reflexivity|]. split; [cbn [length]; rewrite map_length; reflexivity|]. split.
  - intros z [<-|Hz]; [exact Hn|]. apply in_map_iff in Hz. destruct Hz as (_ & <- & _). lia.
  - cbn [zsum fold_right]. assert (E : fold_right Z.add 0%Z (map (fun _ : R => 0%Z) p) = 0%Z) by (clear; induction p as [|y p IH]; [reflexivity|]; cbn; rewrite IH; reflexivity). rewrite E. lia.
Qed.
(** the random number is the state *)
Definition state_int (a b s : Z) : Z * Z := ((a + s mod (b - a))%Z, s).
Lemma state_int_ok : randint_ok state_int.
Proof. intros a b s H. cbn [fst state_int]. pose proof (Z.mod_pos_bound s (b - a) ltac:(lia)). lia. Qed.

Definition ex_data : mat := tab [[2;1];[1;2]]%Z 2.
(** the documented claim about row_product_multinominal is refuted by a possible draw *)
Theorem C53_documented_claim_refuted : exists t, 
  sim_data Z first_cell state_int (fun x => x) (fun x => x) (fun n => repeat 0%Z n) 0 2 true ex_data "row_product_multinominal" 7%Z = (Ok t, 7%Z) /\ ~ same_rowsums ex_data t /\ same_colsums ex_data t.
Proof.
  assert (HN : nonneg_table ex_data) by (intros i j Hi Hj; cbn [nr nc tab ex_data length] in *; destruct i as [|[|i]]; [| |lia]; (destruct j as [|[|j]]; [| |lia]); simpl; lra).
  assert (PC : positive_colsums ex_data) by (intros j Hj; cbn [nr nc tab ex_data length] in *; unfold colsum, lsum; destruct j as [|[|j]]; [| |lia]; simpl; lra).
  assert (WT : whole_totals ex_data).
  { split; intros i Hi; cbn [nr nc tab ex_data length] in *; exists 3%nat; unfold rowsum, colsum, lsum; destruct i as [|[|i]]; [| |lia| | |lia]; simpl; lra. }
  destruct (C53_row_product_fixes_columns Z first_cell state_int (fun x => x) (fun x => x) (fun n => repeat 0%Z n) 0 2 true ex_data 7%Z first_cell_ok HN PC WT) as (t & s' & E & _ & SC).
  exists t. unfold sim_data in *. cbn [String.eqb Ascii.eqb Bool.eqb] in *.
  assert (E2 := E). unfold sim_2d_product_multinominal, mbind, ret in E2. cbn [Z.eqb nc ex_data tab seq mmap] in E2. unfold mbind, ret in E2. unfold sim_flat in E2.
  assert (T : forall j, (j < 2)%nat -> lsum (fun x : R => x) (row (transp ex_data) j) = 3) by (intros j Hj; rewrite lsum_row, rowsum_transp; unfold colsum, lsum; destruct j as [|[|j]]; [| |lia]; simpl; lra).
  rewrite !T in E2 by lia. cbn [Z.leb Z.compare] in E2. rewrite (proj2 (rleb_false 3 0)) in E2 by lra. rewrite (proj2 (reqb_false 3 0)) in E2 by lra. rewrite Ztrunc_IZR in E2.
  unfold first_cell in E2. cbn [row transp ex_data tab nr nc seq map length] in E2. injection E2 as <- <-. split; [exact E|]. split; [|exact SC].
  intros [_ F]. specialize (F 0%nat ltac:(cbn; lia)). unfold rowsum, lsum in F. simpl in F. lra.
Qed.
Print Assumptions C53_documented_claim_refuted.

Lemma ex_totals : rtot ex_data = [3; 3]%Z /\ ctot ex_data = [3; 3]%Z.
Proof.
  assert (A : forall i, (i < 2)%nat -> to_int32 (ZnearestE (rowsum ex_data i)) = 3%Z /\ to_int32 (ZnearestE (colsum ex_data i)) = 3%Z).
  { intros i Hi. assert (E : rowsum ex_data i = INR 3 /\ colsum ex_data i = INR 3) by (unfold rowsum, colsum, lsum; destruct i as [|[|i]]; [| |lia]; simpl; split; lra). destruct E as [-> ->]. rewrite rint_whole. split; reflexivity. }
  unfold rtot, ctot. cbn [ex_data tab nr nc length seq map]. destruct (A 0%nat ltac:(lia)) as [-> ->]. destruct (A 1%nat ltac:(lia)) as [-> ->]. split; reflexivity.
Qed.
(** seed 0: the result depends on the global random state *)
Definition some_exp (_ : f64) : f64 := flit 1 (-2).
Definition some_log (_ : f64) : f64 := fzero.
Theorem C51_zero_seed_not_reproducible : libm_ok some_exp some_log /\
  exists s1 s2, fst (sim_2d_data_patefield Z state_int some_exp some_log (fun n => repeat 0%Z n) 0 2 true ex_data (Some 0%Z) s1)
             <> fst (sim_2d_data_patefield Z state_int some_exp some_log (fun n => repeat 0%Z n) 0 2 true ex_data (Some 0%Z) s2).
Proof.
  split; [split; [intros; reflexivity|]; intros i Hi; split; [reflexivity|]; unfold f2R, some_log, fzero; simpl; lra|].
  exists 1%Z, 100000%Z. rewrite !patefield_unfold. cbn [fst]. destruct ex_totals as [-> ->]. change (fst (used_seed Z state_int (Some 0%Z) 1%Z)) with 1%Z. change (fst (used_seed Z state_int (Some 0%Z) 100000%Z)) with 100000%Z.
  cbn [ex_data tab nr nc length].
  assert (E1 : call_patefield some_exp some_log (fun n => repeat 0%Z n) 0 2 2 2 [3;3]%Z [3;3]%Z 1 = Ok [2;1;1;2]%Z) by (vm_compute; reflexivity).
  assert (E2 : call_patefield some_exp some_log (fun n => repeat 0%Z n) 0 2 2 2 [3;3]%Z [3;3]%Z 100000 = Ok [1;2;2;1]%Z) by (vm_compute; reflexivity).
  rewrite E1, E2. cbn [rmap]. intros H. injection H as H. apply (f_equal (fun f => f 0%nat 0%nat)) in H. simpl in H. lra.
Qed.
Print Assumptions C51_zero_seed_not_reproducible.
(** non-vacuity of C50-C54: all hypotheses hold together *)
Theorem C54_hypotheses : multinomial_ok first_cell /\ randint_ok state_int /\ libm_ok some_exp some_log /\ forall method, good_for Z state_int some_exp some_log (fun n => repeat 0%Z n) 2 true method ex_data.
Proof.
  split; [exact first_cell_ok|]. split; [exact state_int_ok|]. split; [apply C51_zero_seed_not_reproducible|]. intros method.
  assert (A : forall i, (i < 2)%nat -> rowsum ex_data i = INR 3 /\ colsum ex_data i = INR 3) by (intros i Hi; unfold rowsum, colsum, lsum; destruct i as [|[|i]]; [| |lia]; simpl; split; lra).
  split; [cbn; lia|]. split; [cbn; lia|]. split; [|split; [|split; [|split]]].
  - intros i j Hi Hj. cbn [nr nc tab ex_data length] in *. destruct i as [|[|i]]; [| |lia]; (destruct j as [|[|j]]; [| |lia]); simpl; lra.
  - split; intros i Hi; exists 3%nat; apply A; exact Hi.
  - intros i Hi. rewrite (proj1 (A i Hi)). simpl. lra.
  - intros i Hi. rewrite (proj2 (A i Hi)). simpl. lra.
  - intros _. split; [reflexivity|]. split; [unfold matsum, rowsum, lsum; simpl; lra|]. split; [apply C51_zero_seed_not_reproducible|]. split; [lia|]. split; [intros; apply repeat_length|exact state_int_ok].
Qed.
