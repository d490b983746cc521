(** The bivariate normal rectangle probability: derivative in rho (Plackett), symmetries. *)
From Coq Require Import Reals Lra Lia Psatz.
From Coquelicot Require Import Coquelicot.
From Verif Require Import Gauss SpecBvn CdfProofs.
Open Scope R_scope.

Definition sig (r : R) : R := sqrt (1 - r ^ 2).
Lemma inside : forall r, r ^ 2 < 1 <-> -1 < r < 1.
Proof. intros r. split; [intros H; split; nra|intros [A B]; nra]. Qed.
Lemma sig_pos : forall r, -1 < r < 1 -> 0 < sig r.
Proof. intros r H. apply sqrt_lt_R0. nra. Qed.
Lemma sig_sq : forall r, -1 < r < 1 -> sig r * sig r = 1 - r ^ 2.
Proof. intros r H. apply sqrt_sqrt. nra. Qed.
Lemma sqrt2pi_pos : 0 < sqrt (2 * PI).
Proof. apply sqrt_lt_R0. pose proof PI_RGT_0. lra. Qed.
Lemma sqrt2pi_sq : sqrt (2 * PI) * sqrt (2 * PI) = 2 * PI.
Proof. apply sqrt_sqrt. pose proof PI_RGT_0. lra. Qed.

Lemma dens_sym : forall r x y, bvn_density r x y = bvn_density r y x.
Proof. intros r x y. unfold bvn_density. do 3 f_equal. ring. Qed.
Lemma dens_opp : forall r x y, bvn_density r (- x) (- y) = bvn_density r x y.
Proof. intros r x y. unfold bvn_density. do 3 f_equal. ring. Qed.
Lemma dens_pos : forall r x y, -1 < r < 1 -> 0 < bvn_density r x y.
Proof.
  intros r x y H. unfold bvn_density. apply Rdiv_lt_0_compat; [apply exp_pos|]. pose proof PI_RGT_0.
  pose proof (sig_pos r H). unfold sig in *. nra.
Qed.

Lemma dens_factor : forall r x y, -1 < r < 1 -> bvn_density r x y = gphi x * (gphi ((y - r * x) / sig r) / sig r).
Proof.
  intros r x y H. pose proof (sig_pos r H) as S. pose proof (sig_sq r H) as Q. pose proof sqrt2pi_pos as P. pose proof sqrt2pi_sq as P2.
  unfold gphi, bvn_density. fold (sig r).
  replace (- (x ^ 2 - 2 * r * x * y + y ^ 2) / (2 * (1 - r ^ 2))) with (- x ^ 2 / 2 + - ((y - r * x) / sig r) ^ 2 / 2).
  - rewrite exp_plus. set (q := sqrt (2 * PI)) in *. rewrite <- P2. field. lra.
  - rewrite <- Q. replace (- x ^ 2 / 2 + - ((y - r * x) / sig r) ^ 2 / 2) with (- (x ^ 2 * (sig r * sig r) + (y - r * x) ^ 2) / (2 * (sig r * sig r))) by (field; lra).
    f_equal. rewrite Q. ring.
Qed.

Definition cH (r d x : R) : R := gphi x * gPhi ((d - r * x) / sig r).

Lemma gPhi_lin_derive : forall k q y, is_derive (fun y => gPhi (k * y + q)) y (k * gphi (k * y + q)).
Proof.
  intros k q y. apply (is_derive_comp gPhi (fun y => k * y + q)); [apply gPhi_derive|]. auto_derive; [exact I|]. ring.
Qed.

Lemma cont_dens_y : forall r x y, continuous (fun y => bvn_density r x y) y.
Proof.
  intros r x y. apply (ex_derive_continuous (fun y => bvn_density r x y)). unfold bvn_density. auto_derive. exact I.
Qed.
Lemma cont_dens_x : forall r x y, continuous (fun x => bvn_density r x y) x.
Proof.
  intros r x y. apply (ex_derive_continuous (fun x => bvn_density r x y)). unfold bvn_density. auto_derive. exact I.
Qed.

Lemma inner_int : forall r x c d, -1 < r < 1 -> RInt (fun y => bvn_density r x y) c d = cH r d x - cH r c x.
Proof.
  intros r x c d H. pose proof (sig_pos r H) as S.
  apply (is_RInt_unique (V := R_CompleteNormedModule)).
  assert (D : forall y, is_derive (fun y => cH r y x) y (bvn_density r x y)).
  { intros y. unfold cH. assert (E : forall t, gphi x * gPhi (/ sig r * t + - (r * x) / sig r) = gphi x * gPhi ((t - r * x) / sig r)).
    { intros t. do 2 f_equal. field. lra. }
    apply (is_derive_ext _ _ y _ E). rewrite (dens_factor r x y H).
    replace (gphi ((y - r * x) / sig r) / sig r) with (/ sig r * gphi (/ sig r * y + - (r * x) / sig r)).
    - apply (is_derive_scal (fun t => gPhi (/ sig r * t + - (r * x) / sig r))). apply gPhi_lin_derive.
    - replace (/ sig r * y + - (r * x) / sig r) with ((y - r * x) / sig r) by (field; lra). field. lra. }
  apply (is_RInt_derive (V := R_CompleteNormedModule) (fun y => cH r y x) (fun y => bvn_density r x y) c d); [intros y _; apply D|intros y _; apply cont_dens_y].
Qed.

Lemma cH_derive_rho : forall r d x, -1 < r < 1 -> is_derive (fun r => cH r d x) r (bvn_density r x d * ((r * d - x) / (1 - r ^ 2))).
Proof.
  intros r d x H. pose proof (sig_pos r H) as S. pose proof (sig_sq r H) as Q.
  assert (A : is_derive (fun r => (d - r * x) / sig r) r ((r * d - x) / (sig r * (1 - r ^ 2)))).
  { unfold sig. auto_derive.
    - replace (1 + - (r * (r * 1))) with (1 - r ^ 2) by ring. fold (sig r). repeat split; [nra|lra].
    - replace (1 + - (r * (r * 1))) with (1 - r ^ 2) by ring. fold (sig r). rewrite <- Q.
      transitivity ((- x * (sig r * sig r) + r * (d - r * x)) / (sig r * (sig r * sig r))); [field; lra|].
      rewrite Q at 1. field. lra. }
  rewrite (dens_factor r x d H).
  replace (gphi x * (gphi ((d - r * x) / sig r) / sig r) * ((r * d - x) / (1 - r ^ 2)))
    with (gphi x * ((r * d - x) / (sig r * (1 - r ^ 2)) * gphi ((d - r * x) / sig r))) by (field; split; nra).
  unfold cH. apply (is_derive_scal (fun r => gPhi ((d - r * x) / sig r))).
  apply (is_derive_comp gPhi (fun r => (d - r * x) / sig r)); [apply gPhi_derive|exact A].
Qed.

Lemma dens_derive_x : forall r d x, -1 < r < 1 -> is_derive (fun x => bvn_density r x d) x (bvn_density r x d * ((r * d - x) / (1 - r ^ 2))).
Proof.
  intros r d x H. pose proof (sig_pos r H) as S. pose proof PI_RGT_0 as P. unfold bvn_density. fold (sig r).
  auto_derive; [exact I|]. replace (x * (x * 1)) with (x ^ 2) by ring. replace (d * (d * 1)) with (d ^ 2) by ring. replace (r * (r * 1)) with (r ^ 2) by ring.
  unfold Rdiv. unfold Rminus.
  match goal with |- context [exp ?a] => set (e := exp a) end.
  field. repeat split; nra.
Qed.

Lemma cont_cH_x : forall r d x, continuous (fun x => cH r d x) x.
Proof.
  intros r d x. unfold cH. apply (continuous_mult (K := R_AbsRing) gphi (fun x => gPhi ((d - r * x) / sig r))).
  - apply (ex_derive_continuous gphi). exists (- x * gphi x). apply gphi_derive.
  - apply (continuous_comp (fun x => (d - r * x) / sig r) gPhi).
    + apply (ex_derive_continuous (fun x => (d - r * x) / sig r)). unfold Rdiv. auto_derive. exact I.
    + apply (ex_derive_continuous gPhi). exists (gphi ((d - r * x) / sig r)). apply gPhi_derive.
Qed.

(** open interval around an interior point *)
Lemma inside_locally : forall r, -1 < r < 1 -> exists e : posreal, forall u, Rabs (u - r) < e -> -1 < u < 1.
Proof.
  intros r H. assert (E : 0 < Rmin (r + 1) (1 - r)) by (apply Rmin_pos; lra). exists (mkposreal _ E). simpl. intros u U.
  pose proof (Rmin_l (r + 1) (1 - r)). pose proof (Rmin_r (r + 1) (1 - r)). apply Rabs_def2 in U. lra.
Qed.

Lemma cont2_pow2_1 : forall x y, continuity_2d_pt (fun u v => u ^ 2) x y.
Proof. intros x y. apply (continuity_2d_pt_ext (fun u v => u * u)); [intros; ring|]. apply continuity_2d_pt_mult; apply continuity_2d_pt_id1. Qed.
Lemma cont2_pow2_2 : forall x y, continuity_2d_pt (fun u v => v ^ 2) x y.
Proof. intros x y. apply (continuity_2d_pt_ext (fun u v => v * v)); [intros; ring|]. apply continuity_2d_pt_mult; apply continuity_2d_pt_id2. Qed.

Lemma cont2_dens : forall r d x, -1 < r < 1 -> continuity_2d_pt (fun u v => bvn_density u v d * ((u * d - v) / (1 - u ^ 2))) r x.
Proof.
  intros r d x H. pose proof (sig_pos r H) as S. pose proof PI_RGT_0 as P.
  assert (C1 : continuity_2d_pt (fun u v => 1 - u ^ 2) r x) by (apply continuity_2d_pt_minus; [apply continuity_2d_pt_const|apply cont2_pow2_1]).
  apply continuity_2d_pt_mult.
  - unfold bvn_density, Rdiv. apply continuity_2d_pt_mult.
    + apply (continuity_1d_2d_pt_comp exp). { apply derivable_continuous_pt. apply derivable_pt_exp. }
      apply continuity_2d_pt_mult.
      * apply continuity_2d_pt_opp. apply continuity_2d_pt_plus; [|apply continuity_2d_pt_const].
        apply continuity_2d_pt_minus; [apply cont2_pow2_2|].
        apply continuity_2d_pt_mult; [|apply continuity_2d_pt_const].
        apply continuity_2d_pt_mult; [|apply continuity_2d_pt_id2]. apply continuity_2d_pt_mult; [apply continuity_2d_pt_const|apply continuity_2d_pt_id1].
      * apply continuity_2d_pt_inv; [apply continuity_2d_pt_mult; [apply continuity_2d_pt_const|exact C1]|nra].
    + apply (continuity_2d_pt_inv (fun u v => 2 * PI * sqrt (1 - u ^ 2))).
      * apply continuity_2d_pt_mult; [apply continuity_2d_pt_const|]. apply (continuity_1d_2d_pt_comp sqrt); [|exact C1].
        apply continuity_pt_sqrt. nra.
      * fold (sig r). nra.
  - unfold Rdiv. apply continuity_2d_pt_mult.
    + apply continuity_2d_pt_minus; [apply continuity_2d_pt_mult; [apply continuity_2d_pt_id1|apply continuity_2d_pt_const]|apply continuity_2d_pt_id2].
    + apply continuity_2d_pt_inv; [exact C1|nra].
Qed.

Definition cJ (r d a b : R) : R := RInt (fun x => cH r d x) a b.
Lemma ex_cH : forall r d a b, ex_RInt (fun x => cH r d x) a b.
Proof. intros r d a b. apply (ex_RInt_continuous (V := R_CompleteNormedModule)). intros z _. apply cont_cH_x. Qed.

Lemma cJ_derive : forall r d a b, -1 < r < 1 -> is_derive (fun r => cJ r d a b) r (bvn_density r b d - bvn_density r a d).
Proof.
  intros r d a b H. destruct (inside_locally r H) as [e He].
  assert (HD : is_derive (fun r => cJ r d a b) r (RInt (fun t => Derive (fun u => cH u d t) r) a b)).
  { unfold cJ. apply (is_derive_RInt_param (fun u t => cH u d t) a b r).
    - exists e. intros y B t _. eexists. apply cH_derive_rho. apply He. exact B.
    - intros t _. apply (continuity_2d_pt_ext_loc (fun u v => bvn_density u v d * ((u * d - v) / (1 - u ^ 2)))).
      + exists e. intros u v U _. symmetry. apply is_derive_unique. apply cH_derive_rho. apply He. exact U.
      + apply cont2_dens. exact H.
    - exists e. intros y _. apply ex_cH. }
  replace (bvn_density r b d - bvn_density r a d) with (RInt (fun t => Derive (fun u => cH u d t) r) a b); [exact HD|].
  transitivity (RInt (fun x => bvn_density r x d * ((r * d - x) / (1 - r ^ 2))) a b).
  - apply RInt_ext. intros x _. apply is_derive_unique. apply cH_derive_rho. exact H.
  - apply (is_RInt_unique (V := R_CompleteNormedModule)).
    apply (is_RInt_derive (V := R_CompleteNormedModule) (fun x => bvn_density r x d) (fun x => bvn_density r x d * ((r * d - x) / (1 - r ^ 2))) a b).
    + intros x _. apply dens_derive_x. exact H.
    + intros x _. apply (continuous_mult (K := R_AbsRing) (fun x => bvn_density r x d) (fun x => (r * d - x) / (1 - r ^ 2))); [apply cont_dens_x|].
      apply (ex_derive_continuous (fun x => (r * d - x) / (1 - r ^ 2))). unfold Rdiv. auto_derive. exact I.
Qed.

Lemma prob_cJ : forall r a c b d, -1 < r < 1 -> bvn_prob r a c b d = cJ r d a b - cJ r c a b.
Proof.
  intros r a c b d H. unfold bvn_prob. destruct (Rlt_dec (r ^ 2) 1) as [_|N]; [|exfalso; apply N; apply inside; exact H].
  unfold cJ. etransitivity; [|exact (RInt_minus (V := R_CompleteNormedModule) (fun x => cH r d x) (fun x => cH r c x) a b (ex_cH r d a b) (ex_cH r c a b))].
  apply RInt_ext. intros x _. rewrite (inner_int r x c d H). reflexivity.
Qed.

(** mixed difference of the density over the corners of a rectangle *)
Definition corner (r a c b d : R) : R := bvn_density r b d - bvn_density r a d - bvn_density r b c + bvn_density r a c.

(** Plackett: the derivative in the correlation *)
Lemma prob_derive : forall r a c b d, -1 < r < 1 -> is_derive (fun r => bvn_prob r a c b d) r (corner r a c b d).
Proof.
  intros r a c b d H. destruct (inside_locally r H) as [e He].
  apply (is_derive_ext_loc (fun r => cJ r d a b - cJ r c a b)).
  - exists e. intros y B. symmetry. apply prob_cJ. apply He. exact B.
  - unfold corner. replace (bvn_density r b d - bvn_density r a d - bvn_density r b c + bvn_density r a c)
      with (minus (bvn_density r b d - bvn_density r a d) (bvn_density r b c - bvn_density r a c)) by (unfold minus, plus, opp; simpl; ring).
    apply (is_derive_minus (fun r => cJ r d a b) (fun r => cJ r c a b)); apply cJ_derive; exact H.
Qed.

Lemma cont_gphi : forall x, continuous gphi x.
Proof. intros x. apply (ex_derive_continuous gphi). eexists. apply gphi_derive. Qed.
Lemma gphi_int : forall a b, RInt gphi a b = gPhi b - gPhi a.
Proof.
  intros a b. apply (is_RInt_unique (V := R_CompleteNormedModule)).
  apply (is_RInt_derive (V := R_CompleteNormedModule) gPhi gphi a b); [intros x _; apply gPhi_derive|intros x _; apply cont_gphi].
Qed.
Lemma normal_mass_Phi : forall a b, normal_mass a b = gPhi b - gPhi a.
Proof. intros a b. apply gphi_int. Qed.

Lemma prob_0 : forall a c b d, bvn_prob 0 a c b d = (gPhi b - gPhi a) * (gPhi d - gPhi c).
Proof.
  intros a c b d. rewrite prob_cJ by lra. unfold cJ.
  assert (E : forall d, RInt (fun x => cH 0 d x) a b = gPhi d * (gPhi b - gPhi a)).
  { intros t. rewrite <- gphi_int. transitivity (scal (gPhi t) (RInt (V := R_CompleteNormedModule) gphi a b)); [|reflexivity].
    rewrite <- (RInt_scal (V := R_CompleteNormedModule) gphi a b (gPhi t)).
    - apply RInt_ext. intros x _. unfold cH, sig, scal; simpl; unfold mult; simpl. replace (1 - 0 * (0 * 1)) with 1 by ring. rewrite sqrt_1.
      replace ((t - 0 * x) / 1) with t by field. ring.
    - apply (ex_RInt_continuous (V := R_CompleteNormedModule)). intros z _. apply cont_gphi. }
  rewrite !E. ring.
Qed.

(** functions of the correlation with the same derivative *)
Lemma same_on : forall f g : R -> R, (forall r, -1 < r < 1 -> exists l, is_derive f r l /\ is_derive g r l) -> f 0 = g 0 -> forall r, -1 < r < 1 -> f r = g r.
Proof.
  intros f g D E r H. assert (I : interval (fun x => -1 < x < 1)) by (intros x y z A B C; lra).
  assert (Q : f r - g r = f 0 - g 0).
  { apply (const_on _ (fun r => f r - g r) I); [|exact H|lra]. intros x X. destruct (D x X) as [l [A B]]. apply is_derive_Reals.
    replace 0 with (minus l l) by (unfold minus, plus, opp; simpl; ring). apply (is_derive_minus f g); assumption. }
  lra.
Qed.

Lemma prob_swap : forall r a c b d, bvn_prob r a c b d = bvn_prob r c a d b.
Proof.
  intros r a c b d. destruct (Rlt_dec (r ^ 2) 1) as [L|N].
  - apply inside in L. apply (same_on (fun r => bvn_prob r a c b d) (fun r => bvn_prob r c a d b)); [|rewrite !prob_0; ring|exact L].
    intros x X. exists (corner x a c b d). split; [apply prob_derive; exact X|].
    replace (corner x a c b d) with (corner x c a d b) by (unfold corner; rewrite (dens_sym x d b), (dens_sym x c b), (dens_sym x d a), (dens_sym x c a); ring).
    apply prob_derive. exact X.
  - unfold bvn_prob. destruct (Rlt_dec (r ^ 2) 1) as [L|_]; [contradiction|]. destruct (Req_EM_T r 1) as [_|_].
    + unfold overlap_mass. rewrite (Rmax_comm a c), (Rmin_comm b d). reflexivity.
    + destruct (Req_EM_T r (-1)) as [_|_]; [|reflexivity]. unfold overlap_mass.
      assert (M1 : Rmax c (- b) = - Rmin b (- c)) by (unfold Rmax, Rmin; repeat destruct (Rle_dec _ _); lra).
      assert (M2 : Rmin d (- a) = - Rmax a (- d)) by (unfold Rmax, Rmin; repeat destruct (Rle_dec _ _); lra).
      rewrite M1, M2. rewrite !normal_mass_Phi, !gPhi_opp. destruct (Rlt_dec (Rmax a (- d)) (Rmin b (- c))); destruct (Rlt_dec (- Rmin b (- c)) (- Rmax a (- d))); lra.
Qed.

Lemma prob_reflect : forall r a c b d, bvn_prob r a c b d = bvn_prob r (- b) (- d) (- a) (- c).
Proof.
  intros r a c b d. destruct (Rlt_dec (r ^ 2) 1) as [L|N].
  - apply inside in L. apply (same_on (fun r => bvn_prob r a c b d) (fun r => bvn_prob r (- b) (- d) (- a) (- c))); [|rewrite !prob_0, !gPhi_opp; ring|exact L].
    intros x X. exists (corner x a c b d). split; [apply prob_derive; exact X|].
    replace (corner x a c b d) with (corner x (- b) (- d) (- a) (- c)) by (unfold corner; rewrite !dens_opp; ring).
    apply prob_derive. exact X.
  - unfold bvn_prob. destruct (Rlt_dec (r ^ 2) 1) as [L|_]; [contradiction|]. destruct (Req_EM_T r 1) as [_|_].
    + unfold overlap_mass. assert (M1 : Rmax (- b) (- d) = - Rmin b d) by (unfold Rmax, Rmin; repeat destruct (Rle_dec _ _); lra).
      assert (M2 : Rmin (- a) (- c) = - Rmax a c) by (unfold Rmax, Rmin; repeat destruct (Rle_dec _ _); lra).
      rewrite M1, M2. rewrite !normal_mass_Phi, !gPhi_opp. destruct (Rlt_dec (Rmax a c) (Rmin b d)); destruct (Rlt_dec (- Rmin b d) (- Rmax a c)); lra.
    + destruct (Req_EM_T r (-1)) as [_|_]; [|reflexivity]. unfold overlap_mass. rewrite !Ropp_involutive.
      assert (M1 : Rmax (- b) c = - Rmin b (- c)) by (unfold Rmax, Rmin; repeat destruct (Rle_dec _ _); lra).
      assert (M2 : Rmin (- a) d = - Rmax a (- d)) by (unfold Rmax, Rmin; repeat destruct (Rle_dec _ _); lra).
      rewrite M1, M2. rewrite !normal_mass_Phi, !gPhi_opp. destruct (Rlt_dec (Rmax a (- d)) (Rmin b (- c))); destruct (Rlt_dec (- Rmin b (- c)) (- Rmax a (- d))); lra.
Qed.
