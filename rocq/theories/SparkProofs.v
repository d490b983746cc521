From Coq Require Import String Ascii ZArith List Bool Reals Lra Lia Sorting.Permutation.
Import ListNotations.
From Verif Require Import F64 Base Cells BinModel HistModel RSum StatsModel SpecStats StatsProofs BivModel Num PhikModel SpecPhik PhikProofs OverviewProofs PairMatProofs SparkModel SpecSpark.
Open Scope list_scope.

Lemma split_head : forall s, exists h t, split_colon s = h :: t.
Proof. induction s as [|c s (h & t & E)]; [exists EmptyString, []; reflexivity|]. cbn [split_colon]. destruct (Ascii.eqb c ":"%char); [eexists; eexists; reflexivity|]. rewrite E. eexists. eexists. reflexivity. Qed.
Lemma split_free : forall s, colon_free s -> split_colon s = [s].
Proof.
  induction s as [|c s IH]; intros H; [reflexivity|]. cbn [split_colon]. unfold colon_free in *. cbn [list_ascii_of_string In] in H. destruct (Ascii.eqb_spec c ":"%char) as [->|N]; [exfalso; tauto|]. rewrite IH by tauto. reflexivity.
Qed.
Lemma split_app : forall a s, colon_free a -> split_colon (a ++ ":" ++ s) = a :: split_colon s.
Proof.
  induction a as [|c a IH]; intros s H; [reflexivity|]. cbn [append split_colon]. unfold colon_free in *. cbn [list_ascii_of_string In] in H. destruct (Ascii.eqb_spec c ":"%char) as [->|N]; [exfalso; tauto|].
  change (String ":" s) with (":" ++ s)%string. rewrite IH by tauto. reflexivity.
Qed.
Lemma split_one : forall s h, split_colon s = [h] -> colon_free s.
Proof.
  induction s as [|c s IH]; intros h H; [intros []|]. cbn [split_colon] in H. destruct (Ascii.eqb_spec c ":"%char) as [->|N].
  - destruct (split_head s) as (x & t & E). rewrite E in H. discriminate.
  - destruct (split_head s) as (x & t & E). rewrite E in H. injection H as <- ->. intros [X|X]; [congruence|]. exact (IH x E X).
Qed.

Definition row_num (L : lib) (m : mat) : res num := match phik_from_hist2d L m true with Ok v => Ok (Fin v) | Raise TypeError => Ok NaN | Raise e => Raise e end.
Lemma row_pair : forall L a b m, colon_free a -> colon_free b -> phik_from_row L (a ++ ":" ++ b, m)%string = if String.eqb a b then Ok (a, b, Fin 1) else rmap (fun v => (a, b, v)) (row_num L m).
Proof.
  intros L a b m Ha Hb. unfold phik_from_row. rewrite split_app by exact Ha. rewrite split_free by exact Hb. destruct (String.eqb a b); [reflexivity|]. unfold row_num. destruct (phik_from_hist2d L m true) as [v|[]]; reflexivity.
Qed.
Lemma row_three : forall L a b s m, colon_free a -> colon_free b -> phik_from_row L (a ++ ":" ++ b ++ ":" ++ s, m)%string = rmap (fun v => (a, b, v)) (row_num L m).
Proof.
  intros L a b s m Ha Hb. unfold phik_from_row. rewrite split_app by exact Ha. rewrite split_app by exact Hb. destruct (split_head s) as (h & t & ->). unfold row_num. destruct (phik_from_hist2d L m true) as [v|[]]; reflexivity.
Qed.
Lemma row_no_colon : forall L k m, colon_free k -> is_ok (phik_from_row L (k, m)) = false /\ forall v, phik_from_hist2d L m true = Ok v -> phik_from_row L (k, m) = Raise IndexError.
Proof.
  intros L k m H. unfold phik_from_row. rewrite split_free by exact H. split; [destruct (phik_from_hist2d L m true) as [v|[]]; reflexivity|]. intros v ->. reflexivity.
Qed.

(** a dictionary of histograms named a:b *)
Definition named (l : list (string * string * mat)) : list (string * hval) := map (fun e => ((fst (fst e) ++ ":" ++ snd (fst e))%string, HArr (snd e))) l.
Lemma spark_named : forall L l, (forall e, In e l -> colon_free (fst (fst e)) /\ colon_free (snd (fst e))) ->
  spark_phik_matrix L (named l) = rmap overview (mapM (fun e => if String.eqb (fst (fst e)) (snd (fst e)) then Ok (fst (fst e), snd (fst e), Fin 1) else rmap (fun v => (fst (fst e), snd (fst e), v)) (row_num L (snd e))) l).
Proof.
  intros L l H. unfold spark_phik_matrix.
  assert (E : existsb (fun kv => match snd kv with HOther => true | _ => false end) (named l) = false) by (clear; unfold named; induction l; [reflexivity|exact IHl]). rewrite E.
  assert (F : flat_map (fun kv => match snd kv with HArr m => [(fst kv, m)] | HOther => [] end) (named l) = map (fun e => ((fst (fst e) ++ ":" ++ snd (fst e))%string, snd e)) l) by (clear; unfold named; induction l as [|a l IH]; [reflexivity|]; cbn [map flat_map fst snd app]; rewrite IH; reflexivity).
  rewrite F, mapM_map_in. rewrite (mapM_ext _ _ _ (fun e => if String.eqb (fst (fst e)) (snd (fst e)) then Ok (fst (fst e), snd (fst e), Fin 1) else rmap (fun v => (fst (fst e), snd (fst e), v)) (row_num L (snd e)))).
  - destruct (mapM _ l); reflexivity.
  - intros [[a b] m] Hin. destruct (H _ Hin). cbn [fst snd] in *. apply row_pair; assumption.
Qed.

(** * global correlations *)
Open Scope R_scope.
Section Global.
  Variables (n : nat) (V W : nat -> nat -> R).
  Hypothesis SY : symmetric n V. Hypothesis PD : positive_definite n V. Hypothesis IV : right_inverse n V W.
  Variable i : nat. Hypothesis Hi : (i < n)%nat.
  Let e (c : R) (k : nat) : R := if Nat.eqb k i then c else 0.
  Lemma sum_e : forall c (f : nat -> R), lsum (fun k => e c k * f k) (seq 0 n) = c * f i.
  Proof.
    intros c f. rewrite (lsum_support _ Nat.eq_dec _ _ [i]); [unfold lsum, e; simpl; rewrite Nat.eqb_refl; lra|apply seq_NoDup|repeat constructor; intros []|].
    intros a Ha. rewrite in_seq. simpl. assert (Ea : a = i). { destruct (Nat.eq_dec a i) as [Q|Q]; [exact Q|]. exfalso. apply Ha. unfold e. rewrite (proj2 (Nat.eqb_neq _ _) Q). ring. } split; [auto|lia].
  Qed.
  Lemma quad_rows : forall x, quad n V x = lsum (fun k => x k * lsum (fun j => V k j * x j) (seq 0 n)) (seq 0 n).
  Proof. intros x. unfold quad. apply lsum_ext. intros k _. rewrite <- lsum_scal. apply lsum_ext. intros j _. ring. Qed.
  Lemma col_eq : forall k, (k < n)%nat -> lsum (fun j => V k j * W j i) (seq 0 n) = e 1 k.
  Proof. intros k Hk. rewrite IV by assumption. reflexivity. Qed.
  Lemma Vii_pos : 0 < V i i.
  Proof.
    assert (H : 0 < quad n V (e 1)) by (apply PD; exists i; split; [exact Hi|]; unfold e; rewrite Nat.eqb_refl; lra). rewrite quad_rows, sum_e in H.
    rewrite (lsum_ext _ _ (fun j => e 1 j * V i j)) in H by (intros; ring). rewrite sum_e in H. lra.
  Qed.
  Lemma quad_w : forall c, quad n V (fun k => W k i - e c k) = W i i - 2 * c + c * c * V i i.
  Proof.
    intros c. rewrite quad_rows.
    assert (R1 : forall k, (k < n)%nat -> lsum (fun j => V k j * (W j i - e c j)) (seq 0 n) = e 1 k - c * V k i).
    { intros k Hk. rewrite (lsum_ext _ _ (fun j => V k j * W j i - e c j * V k j)) by (intros; ring). rewrite lsum_minus, col_eq by exact Hk. rewrite sum_e. reflexivity. }
    rewrite (lsum_ext _ _ (fun k => (e 1 k * W k i - c * (V i k * W k i)) - (e c k * (e 1 k - c * V k i)))).
    - rewrite lsum_minus, lsum_minus, lsum_scal, !sum_e, col_eq by exact Hi. unfold e. rewrite Nat.eqb_refl. ring.
    - intros k Hk. apply in_seq in Hk. rewrite R1 by lia. rewrite (SY i k) by lia. ring.
  Qed.
  Lemma Wii : 1 <= V i i * W i i.
  Proof.
    pose proof Vii_pos as P. set (c := / V i i).
    assert (Q : 0 <= quad n V (fun k => W k i - e c k)).
    { destruct (existsb (fun k => negb (reqb (W k i - e c k) 0)) (seq 0 n)) eqn:B.
      - apply existsb_exists in B. destruct B as (k & Hk & B). apply in_seq in Hk. apply negb_true_iff, reqb_false in B. apply Rlt_le, PD. exists k. split; [lia|exact B].
      - right. symmetry. rewrite quad_rows. apply lsum_0. intros k Hk. assert (Z : W k i - e c k = 0); [|rewrite Z; ring].
        destruct (reqb (W k i - e c k) 0) eqn:B2; [apply reqb_true; exact B2|]. exfalso. assert (X : existsb (fun k => negb (reqb (W k i - e c k) 0)) (seq 0 n) = true) by (apply existsb_exists; exists k; rewrite B2; auto). congruence. }
    rewrite quad_w in Q. unfold c in Q. assert (E : W i i - 2 * / V i i + / V i i * / V i i * V i i = W i i - / V i i) by (field; lra). rewrite E in Q.
    assert (V i i * / V i i <= V i i * W i i) by (apply Rmult_le_compat_l; lra). rewrite Rinv_r in H by lra. exact H.
  Qed.
  Lemma global_unit : exists g, global_value (Fin (V i i)) (Fin (W i i)) = Fin g /\ 0 <= g < 1 /\ g * g = 1 - 1 / (V i i * W i i).
  Proof.
    pose proof Wii as H. set (p := V i i * W i i) in *. assert (P : 0 < 1 / p <= 1).
    { unfold Rdiv. rewrite Rmult_1_l. split; [apply Rinv_0_lt_compat; lra|]. rewrite <- Rinv_1. apply Rinv_le_contravar; lra. }
    exists (sqrt (1 - 1 / p)). unfold global_value. fold p. destruct (Req_EM_T p 0); [lra|]. cbn zeta. destruct (Rlt_dec (1 - 1 / p) 0); [lra|]. split; [reflexivity|]. split; [|apply sqrt_sqrt; lra].
    split; [apply sqrt_pos|]. assert (S : sqrt (1 - 1 / p) < sqrt 1) by (apply sqrt_lt_1; lra). rewrite sqrt_1 in S. exact S.
  Qed.
End Global.
Lemma rows_nth : forall n V i, (i < n)%nat -> nth i (nth i (rows_of n V) []) NaN = Fin (V i i).
Proof.
  intros n V i H. unfold rows_of. rewrite (nth_indep _ [] (map (fun j => Fin (V 0%nat j)) (seq 0 n))) by (rewrite map_length, seq_length; exact H). rewrite (map_nth (fun i => map (fun j => Fin (V i j)) (seq 0 n))), seq_nth by exact H. cbn [plus].
  rewrite (nth_indep _ NaN (Fin (V i 0%nat))) by (rewrite map_length, seq_length; exact H). rewrite (map_nth (fun j => Fin (V i j))), seq_nth by exact H. reflexivity.
Qed.
