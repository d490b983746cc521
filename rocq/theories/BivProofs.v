From Coq Require Import ZArith List Reals Lra Lia Bool Sorting.Permutation Psatz.
From Verif Require Import Base RSum StatsModel StatsProofs SpecSolver SpecBiv BivModel.
Import ListNotations.
Open Scope R_scope.

(** * C20: the half table *)
Definition half_cells (n1 n2 : nat) : list (nat * nat) :=
  list_prod (seq 0 (n1 / 2)) (seq 0 n2) ++
  if Nat.odd n1 then map (fun j => (n1 / 2, j)%nat) (seq 0 (n2 / 2)) else [].
Definition centre (n1 n2 : nat) : list (nat * nat) := if andb (Nat.odd n1) (Nat.odd n2) then [((n1 / 2)%nat, (n2 / 2)%nat)] else [].
Definition refl_cell (n1 n2 : nat) (c : nat * nat) : nat * nat := ((n1 - 1 - fst c)%nat, (n2 - 1 - snd c)%nat).
Definition phik_cells (n1 n2 : nat) : list (nat * nat) := (half_cells n1 n2 ++ centre n1 n2) ++ map (refl_cell n1 n2) (half_cells n1 n2).

Lemma half_div : forall n i, (i < n / 2)%nat <-> (2 * i + 1 < n)%nat.
Proof. intros n i. pose proof (Nat.div_mod n 2 ltac:(lia)). pose proof (Nat.mod_upper_bound n 2 ltac:(lia)). lia. Qed.
Lemma odd_mid : forall n i, Nat.odd n = true -> ((n / 2)%nat = i <-> (2 * i + 1 = n)%nat).
Proof. intros n i O. apply Nat.odd_spec in O. destruct O as [k ->]. rewrite Nat.mul_comm, Nat.div_add_l by lia. change (1 / 2)%nat with 0%nat. lia. Qed.
Lemma odd_of : forall i n, (2 * i + 1 = n)%nat -> Nat.odd n = true.
Proof. intros i n <-. apply Nat.odd_spec. exists i. lia. Qed.
Lemma nodup_app : forall A (l k : list A), NoDup l -> NoDup k -> (forall x, In x l -> In x k -> False) -> NoDup (l ++ k).
Proof.
  intros A l k Hl Hk D. induction Hl as [|a l Ha Hl IH]; cbn [app]; [exact Hk|]. constructor.
  - rewrite in_app_iff. intros [H|H]; [contradiction|]. apply (D a); [left; reflexivity|exact H].
  - apply IH. intros x H1 H2. apply (D x); [right; exact H1|exact H2].
Qed.
Lemma nodup_prod : forall A B (l : list A) (k : list B), NoDup l -> NoDup k -> NoDup (list_prod l k).
Proof.
  intros A B l k Hl Hk. induction Hl as [|a l Ha Hl IH]; cbn [list_prod]; [constructor|]. apply nodup_app.
  - apply FinFun.Injective_map_NoDup; [intros x y E; congruence|exact Hk].
  - exact IH.
  - intros [x y] H1 H2. apply in_map_iff in H1. destruct H1 as (z & E & _). injection E as <- <-. apply in_prod_iff in H2. tauto.
Qed.
Lemma in_half : forall n1 n2 i j, In (i, j) (half_cells n1 n2) <-> (i < n1)%nat /\ (j < n2)%nat /\ ((2 * i + 1 < n1)%nat \/ ((2 * i + 1 = n1)%nat /\ (2 * j + 1 < n2)%nat)).
Proof.
  intros n1 n2 i j. unfold half_cells. rewrite in_app_iff, in_prod_iff, !in_seq. split.
  - intros [[A B]|H].
    + assert (Q : (i < n1 / 2)%nat) by lia. apply half_div in Q. lia.
    + destruct (Nat.odd n1) eqn:O; [|destruct H]. apply in_map_iff in H. destruct H as (j' & E & H). injection E as E1 E2. subst j'. apply odd_mid in E1; [|exact O]. apply in_seq in H. assert (Q : (j < n2 / 2)%nat) by lia. apply half_div in Q. lia.
  - intros (A & B & [H|[H1 H2]]); [left; pose proof (proj2 (half_div n1 i) H); lia|right].
    rewrite (odd_of _ _ H1). apply in_map_iff. exists j. split; [f_equal; apply odd_mid; [apply (odd_of _ _ H1)|exact H1]|]. apply in_seq. pose proof (proj2 (half_div n2 j) H2). lia.
Qed.
Lemma in_centre : forall n1 n2 i j, In (i, j) (centre n1 n2) <-> (2 * i + 1 = n1)%nat /\ (2 * j + 1 = n2)%nat.
Proof.
  intros n1 n2 i j. unfold centre. destruct (Nat.odd n1) eqn:O1; destruct (Nat.odd n2) eqn:O2; cbn [andb].
  - split.
    + intros [E|[]]. injection E as E1 E2. split; [apply (odd_mid n1 i O1), E1|apply (odd_mid n2 j O2), E2].
    + intros [E1 E2]. left. f_equal; [apply (odd_mid n1 i O1), E1|apply (odd_mid n2 j O2), E2].
  - split; [intros []|]. intros [_ E]. apply odd_of in E. congruence.
  - split; [intros []|]. intros [E _]. apply odd_of in E. congruence.
  - split; [intros []|]. intros [E _]. apply odd_of in E. congruence.
Qed.
Lemma nodup_half : forall n1 n2, NoDup (half_cells n1 n2).
Proof.
  intros n1 n2. unfold half_cells. apply nodup_app.
  - apply nodup_prod; apply seq_NoDup.
  - destruct (Nat.odd n1); [|constructor]. apply FinFun.Injective_map_NoDup; [intros x y E; congruence|apply seq_NoDup].
  - intros [i j] H1 H2. destruct (Nat.odd n1); [|destruct H2]. apply in_prod_iff in H1. rewrite !in_seq in H1. apply in_map_iff in H2. destruct H2 as (k & E & _). apply (f_equal fst) in E. cbn [fst] in E. lia.
Qed.
Theorem phik_cells_all : forall n1 n2, Permutation (phik_cells n1 n2) (all_cells n1 n2).
Proof.
  intros n1 n2. apply NoDup_Permutation.
  - unfold phik_cells. apply nodup_app; [apply nodup_app| |].
    + apply nodup_half.
    + unfold centre. destruct (andb _ _); repeat constructor. intros [].
    + intros [i j] A B. apply in_half in A. apply in_centre in B. lia.
    + assert (I : forall x y, In x (half_cells n1 n2) -> In y (half_cells n1 n2) -> refl_cell n1 n2 x = refl_cell n1 n2 y -> x = y).
      { intros [i j] [i' j'] A B E. apply in_half in A, B. unfold refl_cell in E. cbn [fst snd] in E. injection E as E1 E2. f_equal; lia. }
      pose proof (nodup_half n1 n2) as N. revert I. induction N as [|x l Hx N IH]; intros I; cbn [map]; constructor.
      * intros C. apply in_map_iff in C. destruct C as (y & E & Hy). apply Hx. rewrite (I x y); [exact Hy|left; reflexivity|right; exact Hy|symmetry; exact E].
      * apply IH. intros a b Ha Hb. apply I; right; assumption.
    + intros [i j] A B. apply in_map_iff in B. destruct B as ([i' j'] & E & B). unfold refl_cell in E. cbn [fst snd] in E. injection E as E1 E2. apply in_half in B.
      rewrite in_app_iff in A. destruct A as [A|A]; [apply in_half in A|apply in_centre in A]; lia.
  - apply nodup_prod; apply seq_NoDup.
  - intros [i j]. unfold phik_cells, all_cells. rewrite !in_app_iff, in_half, in_centre, in_prod_iff, !in_seq. split.
    + intros [[H|H]|H]; [lia|lia|]. apply in_map_iff in H. destruct H as ([i' j'] & E & H). unfold refl_cell in E. cbn [fst snd] in E. injection E as E1 E2. apply in_half in H. lia.
    + intros [A B]. destruct (lt_eq_lt_dec (2 * i + 1) n1) as [[C|C]|C]; [left; left; lia| |].
      * destruct (lt_eq_lt_dec (2 * j + 1) n2) as [[D|D]|D]; [left; left; lia|left; right; lia|].
        right. apply in_map_iff. exists ((n1 - 1 - i)%nat, (n2 - 1 - j)%nat). split; [unfold refl_cell; cbn [fst snd]; f_equal; lia|apply in_half; lia].
      * right. apply in_map_iff. exists ((n1 - 1 - i)%nat, (n2 - 1 - j)%nat). split; [unfold refl_cell; cbn [fst snd]; f_equal; lia|apply in_half; lia].
Qed.

(** the code's Python ranges, for edge lists with at least one element *)
Definition zcell (c : nat * nat) : Z * Z := (Z.of_nat (fst c), Z.of_nat (snd c)).
Lemma zrange_nat : forall n, zrange (Z.of_nat n) = map Z.of_nat (seq 0 n).
Proof. intros. unfold zrange. rewrite Nat2Z.id. reflexivity. Qed.
Lemma zhalf : forall n, (Z.of_nat n / 2)%Z = Z.of_nat (n / 2).
Proof. intros. rewrite Nat2Z.inj_div. reflexivity. Qed.
Lemma zodd : forall n, (Z.of_nat n mod 2 =? 1)%Z = Nat.odd n.
Proof.
  intros n. rewrite <- Nat.bit0_odd. destruct (Nat.odd n) eqn:O.
  - rewrite Nat.bit0_odd. rewrite O. apply Nat.odd_spec in O. destruct O as [k ->]. apply Z.eqb_eq. rewrite Nat2Z.inj_add, Nat2Z.inj_mul. change (Z.of_nat 2) with 2%Z. rewrite (Z.mul_comm 2), Z.add_comm, Z.mod_add by lia. reflexivity.
  - rewrite Nat.bit0_odd. rewrite O. assert (E : Nat.even n = true) by (rewrite <- Nat.negb_odd, O; reflexivity). apply Nat.even_spec in E. destruct E as [k ->]. apply Z.eqb_neq. rewrite Nat2Z.inj_mul. change (Z.of_nat 2) with 2%Z. rewrite Z.mul_comm, Z.mod_mul by lia. lia.
Qed.
Lemma list_prod_map : forall A B C D (f : A -> C) (g : B -> D) l k, list_prod (map f l) (map g k) = map (fun c => (f (fst c), g (snd c))) (list_prod l k).
Proof.
  intros A B C D f g l k. induction l as [|a l IH]; [reflexivity|]. cbn [map list_prod]. rewrite map_app, IH, !map_map. reflexivity.
Qed.
Lemma half_ranges_nat : forall n1 n2, half_ranges (Z.of_nat n1) (Z.of_nat n2) = (map zcell (half_cells n1 n2 ++ centre n1 n2), andb (Nat.odd n1) (Nat.odd n2)).
Proof.
  intros n1 n2. unfold half_ranges, half_cells, centre. rewrite !zhalf, !zodd, !zrange_nat, list_prod_map. destruct (Nat.odd n1); destruct (Nat.odd n2); cbn [andb]; rewrite ?app_nil_r, ?map_app, ?map_map; try reflexivity.
  rewrite <- app_assoc. reflexivity.
Qed.
Lemma py_get_nat : forall l i, (i < length l)%nat -> py_get l (Z.of_nat i) = Ok (nth i l 0).
Proof.
  intros l i H. unfold py_get. destruct (Z.ltb_spec (Z.of_nat i) 0); [lia|]. destruct (Z.ltb_spec (Z.of_nat i) 0); [lia|]. rewrite Nat2Z.id, (nth_error_nth' l 0 H). reflexivity.
Qed.
Lemma cell_prob_nat : forall mvn rho sx sy c, (S (fst c) < length sx)%nat -> (S (snd c) < length sy)%nat -> cell_prob mvn rho sx sy (zcell c) = Ok (grid_prob mvn rho sx sy c).
Proof.
  intros mvn rho sx sy [i j] Hi Hj. unfold cell_prob, zcell, grid_prob. cbn [fst snd] in *. replace (Z.of_nat i + 1)%Z with (Z.of_nat (S i)) by lia. replace (Z.of_nat j + 1)%Z with (Z.of_nat (S j)) by lia.
  rewrite !py_get_nat by lia. reflexivity.
Qed.
Lemma mapM_ok : forall A B (f : A -> res B) (g : A -> B) l, (forall a, In a l -> f a = Ok (g a)) -> mapM f l = Ok (map g l).
Proof. induction l as [|a l IH]; intros H; [reflexivity|]. cbn [mapM map]. rewrite H by (left; reflexivity). cbn [rbind]. rewrite IH by (intros; apply H; right; assumption). reflexivity. Qed.
Lemma mapM_map : forall A B C (f : B -> res C) (h : A -> B) l, mapM f (map h l) = mapM (fun a => f (h a)) l.
Proof. induction l as [|a l IH]; [reflexivity|]. cbn [mapM map]. rewrite IH. reflexivity. Qed.

Theorem mvn_array_cells : forall mvn rho sx sy, point_symmetric mvn -> sx <> [] -> sy <> [] -> symmetric_edges sx -> symmetric_edges sy ->
  mvn_array mvn rho sx sy = Ok (map (grid_prob mvn rho sx sy) (phik_cells (length sx - 1) (length sy - 1))).
Proof.
  intros mvn rho sx sy PS Nx Ny Sx Sy. unfold mvn_array.
  assert (Lx : (1 <= length sx)%nat) by (destruct sx; [contradiction|simpl; lia]). assert (Ly : (1 <= length sy)%nat) by (destruct sy; [contradiction|simpl; lia]).
  set (n1 := (length sx - 1)%nat). set (n2 := (length sy - 1)%nat).
  replace (Z.of_nat (length sx) - 1)%Z with (Z.of_nat n1) by lia. replace (Z.of_nat (length sy) - 1)%Z with (Z.of_nat n2) by lia.
  rewrite half_ranges_nat, mapM_map. rewrite (mapM_ok _ _ _ (grid_prob mvn rho sx sy)).
  2:{ intros [i j] H. assert (B : In (i, j) (all_cells n1 n2)) by (apply (Permutation_in _ (phik_cells_all n1 n2)); unfold phik_cells; apply in_or_app; left; exact H).
      unfold all_cells in B. apply in_prod_iff in B. rewrite !in_seq in B. apply cell_prob_nat; cbn [fst snd]; lia. }
  cbn [rbind]. f_equal. unfold phik_cells. rewrite (map_app _ (half_cells n1 n2 ++ centre n1 n2)). f_equal.
  assert (E : (if (Nat.odd n1 && Nat.odd n2)%bool then removelast (map (grid_prob mvn rho sx sy) (half_cells n1 n2 ++ centre n1 n2)) else map (grid_prob mvn rho sx sy) (half_cells n1 n2 ++ centre n1 n2)) = map (grid_prob mvn rho sx sy) (half_cells n1 n2)).
  { unfold centre. destruct (andb _ _); rewrite map_app; [cbn [map]; apply removelast_last|cbn [map]; apply app_nil_r]. }
  rewrite E, map_map. apply map_ext_in. intros [i j] H. apply in_half in H. unfold grid_prob, refl_cell. cbn [fst snd]. rewrite PS.
  rewrite (Sx (n1 - 1 - i)%nat), (Sy (n2 - 1 - j)%nat), (Sx (S (n1 - 1 - i))), (Sy (S (n2 - 1 - j))) by (unfold n1, n2; lia).
  f_equal; f_equal; f_equal; unfold n1, n2; lia.
Qed.

(** sums over the code's arrays are sums over the grid *)
Lemma ratio_sum_map : forall A (f g : A -> R) l, ratio_sum (map f l) (map g l) = lsum (fun c => if Req_EM_T (g c) 0 then 0 else (f c - g c) ^ 2 / g c) l.
Proof. intros A f g l. unfold ratio_sum. induction l as [|a l IH]; [reflexivity|]. cbn [map combine]. rewrite !lsum_cons, IH. reflexivity. Qed.
Lemma ratio_sum_grid : forall mvn rho sx sy, ratio_sum (map (grid_prob mvn rho sx sy) (phik_cells (length sx - 1) (length sy - 1))) (map (grid_prob mvn 0 sx sy) (phik_cells (length sx - 1) (length sy - 1))) = binned_chi2 mvn sx sy rho.
Proof. intros. rewrite ratio_sum_map. unfold binned_chi2. apply lsum_perm, phik_cells_all. Qed.

(** * Edges *)
Lemma linspace5_unit : forall n, (0 <= n)%Z -> linspace5 n = Ok (unit_edges (Z.to_nat n)).
Proof.
  intros n H. unfold linspace5, unit_edges. destruct (Z.ltb_spec (n + 1) 0); [lia|]. f_equal. replace (Z.to_nat (n + 1)) with (Z.to_nat n + 1)%nat by lia.
  apply map_ext. intros i. rewrite INR_IZR_INZ with (n := Z.to_nat n). rewrite Z2Nat.id by lia. reflexivity.
Qed.
Lemma unit_length : forall n, length (unit_edges n) = (n + 1)%nat.
Proof. intros. unfold unit_edges. rewrite map_length, seq_length. reflexivity. Qed.
Lemma unit_nth : forall n i, (i <= n)%nat -> nth i (unit_edges n) 0 = -5 + INR i * (10 / INR n).
Proof.
  intros n i H. unfold unit_edges. rewrite nth_indep with (d' := -5 + INR 0 * (10 / INR n)) by (rewrite map_length, seq_length; lia).
  rewrite (map_nth (fun i => -5 + INR i * (10 / INR n))). rewrite seq_nth by lia. reflexivity.
Qed.
Lemma unit_symmetric : forall n, (1 <= n)%nat -> symmetric_edges (unit_edges n).
Proof.
  intros n Hn k Hk. rewrite unit_length in *. rewrite !unit_nth by lia. assert (0 < INR n) by (apply lt_0_INR; lia).
  replace (INR (n + 1 - 1 - k)) with (INR n - INR k) by (rewrite <- minus_INR by lia; f_equal; lia). field. lra.
Qed.
Lemma unit_not_nil : forall n, unit_edges n <> [].
Proof. intros n E. apply (f_equal (@length R)) in E. rewrite unit_length in E. simpl in E. lia. Qed.
Lemma unit_incr : forall n i j, (1 <= n)%nat -> (i < j)%nat -> (j <= n)%nat -> nth i (unit_edges n) 0 < nth j (unit_edges n) 0.
Proof.
  intros n i j Hn Hij Hj. rewrite !unit_nth by lia. assert (0 < INR n) by (apply lt_0_INR; lia). assert (0 < 10 / INR n) by (apply Rdiv_lt_0_compat; lra).
  apply lt_INR in Hij. nra.
Qed.

(** * The two conversion functions in closed form *)
Section Conv.
  Variables (mvn : mvn_fun) (sx sy : list R).
  Hypothesis PS : point_symmetric mvn.
  Hypothesis Nx : sx <> []. Hypothesis Ny : sy <> [].
  Hypothesis Sx : symmetric_edges sx. Hypothesis Sy : symmetric_edges sy.
  Let G := binned_chi2 mvn sx sy.

  Lemma G_zero : G 0 = 0.
  Proof. unfold G, binned_chi2. apply lsum_0. intros c _. cbn zeta. destruct (Req_EM_T _ 0); [reflexivity|]. rewrite Rminus_diag_eq by reflexivity. unfold Rdiv. simpl. ring. Qed.

  Lemma chi2_from_phik_closed : forall rho n sub pedestal nx ny osx osy, edges_or osx nx = Ok sx -> edges_or osy ny = Ok sy ->
    chi2_from_phik mvn rho n sub None None osx osy pedestal nx ny =
    Ok (pedestal + n * G rho * ((n * IZR (Z.min (nx - 1) (ny - 1)) - pedestal) / (n * G 1)) - sub).
  Proof.
    intros. unfold chi2_from_phik. rewrite H, H0. cbn [rbind]. rewrite (mvn_array_cells mvn 0 sx sy), (mvn_array_cells mvn 1 sx sy), (mvn_array_cells mvn rho sx sy) by assumption. cbn [rbind].
    rewrite !ratio_sum_grid. reflexivity.
  Qed.
  Lemma solver_fun_closed : forall n chi2 scale pedestal rho,
    solver_fun mvn n chi2 (map (grid_prob mvn 0 sx sy) (phik_cells (length sx - 1) (length sy - 1))) scale sx sy pedestal rho = pedestal + n * G rho * scale - chi2.
  Proof.
    intros. unfold solver_fun, chi2_from_phik. cbn [edges_or rbind]. rewrite (mvn_array_cells mvn rho sx sy) by assumption. cbn [rbind]. rewrite ratio_sum_grid. reflexivity.
  Qed.

  (** [phik_from_chi2] after the argument checks *)
  Definition clip (chi2 chi2_max : R) : R := if andb (rltb chi2_max chi2) (isclose chi2 chi2_max) then chi2_max else chi2.
  Definition pf_fun (n chi2 pedestal chi2_max : R) (rho : R) : R := pedestal + n * G rho * ((chi2_max - pedestal) / (n * G 1)) - chi2.
  Lemma phik_from_chi2_closed : forall (bq : root_finder) chi2 n nx ny osx osy pedestal, root_finder_ok bq -> 0 <= pedestal ->
    edges_checked osx nx = Ok sx -> edges_checked osy ny = Ok sy ->
    phik_from_chi2 mvn bq chi2 n nx ny osx osy pedestal =
    let chi2_max := n * IZR (Z.min (nx - 1) (ny - 1)) in
    let c := clip chi2 chi2_max in
    if rleb c pedestal then Ok 0 else if rleb chi2_max c then Ok 1
    else bq (pf_fun n c pedestal chi2_max) 0 1 phik_xtol.
  Proof.
    intros bq chi2 n nx ny osx osy pedestal BQ HP E1 E2. unfold phik_from_chi2. rewrite (proj2 (rltb_false pedestal 0)) by exact HP. rewrite E1, E2. cbn [rbind].
    rewrite (mvn_array_cells mvn 0 sx sy), (mvn_array_cells mvn 1 sx sy) by assumption. cbn [rbind]. rewrite ratio_sum_grid. fold G. cbn zeta. unfold clip.
    destruct (rleb _ pedestal); [reflexivity|]. destruct (rleb _ _); [reflexivity|].
    apply (rf_ext bq BQ); [lra|unfold phik_xtol; lra|]. intros x _. apply solver_fun_closed.
  Qed.

  (** the bracket is valid whenever the solver is called *)
  Lemma bracket : forall n c pedestal chi2_max, n * G 1 <> 0 -> pedestal < c -> c < chi2_max ->
    pf_fun n c pedestal chi2_max 0 < 0 /\ 0 < pf_fun n c pedestal chi2_max 1.
  Proof.
    intros n c pedestal chi2_max H1 H2 H3. unfold pf_fun. rewrite G_zero. split; [lra|].
    replace (n * G 1 * ((chi2_max - pedestal) / (n * G 1))) with (chi2_max - pedestal) by (field; split; intros C; apply H1; rewrite C; ring). lra.
  Qed.
End Conv.
