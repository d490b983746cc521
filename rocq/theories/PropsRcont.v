(** Properties C46-C49 (and the memory part of C51) of the Patefield generator. *)
From Coq Require Import ZArith List Reals Lia Lra.
Import ListNotations.
From Verif Require Import F64 SpecRcont RcontModel RcontProofs RcontProofs2.
Open Scope Z_scope.

(** C46: minimal standard generator *)
Theorem C46_generator : forall seed, 1 <= seed <= 2 ^ 31 - 2 ->
  exists u, r8_uniform_01 seed = COk (u, (16807 * seed) mod (2 ^ 31 - 1)) /\
            1 <= (16807 * seed) mod (2 ^ 31 - 1) <= 2 ^ 31 - 2 /\
            ffin u = true /\ (0 < f2R u < 1)%R.
Proof. exact generator_spec. Qed.
Print Assumptions C46_generator.

Theorem C46_zero_is_fixed : exists u, r8_uniform_01 0 = COk (u, 0) /\ f2R u = 0%R.
Proof. exact generator_zero. Qed.
Print Assumptions C46_zero_is_fixed.

(** no 32-bit overflow for any int seed, negative ones included *)
Theorem C46_every_int_seed : forall seed, int32 seed ->
  exists u, r8_uniform_01 seed = COk (u, (16807 * seed) mod (2 ^ 31 - 1)) /\ ffin u = true /\ (0 <= f2R u < 1)%R.
Proof. exact generator_any. Qed.
Print Assumptions C46_every_int_seed.

Example C46_example : 1 <= 12345 <= 2 ^ 31 - 2 /\ match r8_uniform_01 12345 with COk (_, s) => s | _ => 0 end = 207482415.
Proof. split; [lia|]. vm_compute. reflexivity. Qed.

(** C47: exact totals. [libm_exp], [libm_log] are arbitrary functions, [fuel] and the uninitialised values
    [ib0], [mat] are arbitrary. *)
Theorem C47_patefield_totals : forall libm_exp libm_log fuel ib0 nrow ncol rt ct seed mat M seed',
  valid_totals nrow ncol rt ct -> length mat = (nrow * ncol)%nat -> int32 seed ->
  rcont2 libm_exp libm_log fuel ib0 nrow ncol rt ct seed mat = COk (M, seed') ->
  is_table nrow ncol rt ct M.
Proof. exact rcont2_totals. Qed.
Print Assumptions C47_patefield_totals.

(** C48: never an out-of-bounds access, never an error code; terminates with two passes per cell *)
Theorem C48_patefield_memory_safe : forall libm_exp libm_log fuel ib0 nrow ncol rt ct seed mat,
  valid_totals nrow ncol rt ct -> length mat = (nrow * ncol)%nat -> int32 seed ->
  (exists M seed', rcont2 libm_exp libm_log fuel ib0 nrow ncol rt ct seed mat = COk (M, seed')) \/
  rcont2 libm_exp libm_log fuel ib0 nrow ncol rt ct seed mat = CErr IntOverflow \/
  rcont2 libm_exp libm_log fuel ib0 nrow ncol rt ct seed mat = CErr OutOfFuel.
Proof. exact rcont2_safe. Qed.
Print Assumptions C48_patefield_memory_safe.

Theorem C48_patefield_terminates : forall libm_exp libm_log ib0 nrow ncol rt ct seed mat fuel,
  valid_totals nrow ncol rt ct -> length mat = (nrow * ncol)%nat -> int32 seed ->
  libm_ok libm_exp libm_log -> (2 <= fuel)%nat ->
  rcont2 libm_exp libm_log fuel ib0 nrow ncol rt ct seed mat <> CErr OutOfFuel.
Proof. exact rcont2_terminates. Qed.
Print Assumptions C48_patefield_terminates.

(** C49: no overflow up to a total of 46340 ... *)
Theorem C49_no_overflow : forall libm_exp libm_log ib0 nrow ncol rt ct seed mat fuel,
  valid_totals nrow ncol rt ct -> length mat = (nrow * ncol)%nat -> int32 seed ->
  libm_ok libm_exp libm_log -> (2 <= fuel)%nat -> zsum rt <= 46340 ->
  exists M seed', rcont2 libm_exp libm_log fuel ib0 nrow ncol rt ct seed mat = COk (M, seed') /\ is_table nrow ncol rt ct M.
Proof. exact rcont2_small. Qed.
Print Assumptions C49_no_overflow.

(** ... but overflow as soon as the first row total times the first column total exceeds 2^31-1 *)
Theorem C49_overflow : forall libm_exp libm_log fuel ib0 nrow ncol rt ct seed mat,
  valid_totals nrow ncol rt ct -> int32 seed -> (1 <= fuel)%nat ->
  2 ^ 31 - 1 < nth 0 rt 0 * nth 0 ct 0 ->
  rcont2 libm_exp libm_log fuel ib0 nrow ncol rt ct seed mat = CErr IntOverflow.
Proof. exact rcont2_overflow. Qed.
Print Assumptions C49_overflow.

(** the unguarded claim is refuted: 2x2 table with totals 50000 *)
Theorem C49_always_fits_refuted : exists nrow ncol rt ct, valid_totals nrow ncol rt ct /\ zsum rt <= 100000 /\
  forall libm_exp libm_log fuel ib0 seed mat, int32 seed -> (1 <= fuel)%nat ->
  rcont2 libm_exp libm_log fuel ib0 nrow ncol rt ct seed mat = CErr IntOverflow.
Proof. exact rcont2_overflow_witness. Qed.
Print Assumptions C49_always_fits_refuted.

(** argument checking of the C++ routine: an error code for exactly the invalid totals *)
Theorem C48_error_codes : forall libm_exp libm_log fuel ib0 nrow ncol rt ct seed mat,
  length rt = nrow -> length ct = ncol -> length mat = (nrow * ncol)%nat -> int32 seed ->
  libm_ok libm_exp libm_log -> (2 <= fuel)%nat -> zsum rt <= 46340 -> zsum ct <= 46340 ->
  (exists M s', rcont2 libm_exp libm_log fuel ib0 nrow ncol rt ct seed mat = COk (M, s') /\ is_table nrow ncol rt ct M) /\
     valid_totals nrow ncol rt ct
  \/ (exists code, In code [1; 2; 3; 4; 6] /\ rcont2 libm_exp libm_log fuel ib0 nrow ncol rt ct seed mat = CErr (IErr code)) /\
     ~ valid_totals nrow ncol rt ct.
Proof. exact rcont2_errors. Qed.
Print Assumptions C48_error_codes.

(** C51 (memory part): the uninitialised buffer and local variable never influence the outcome *)
Theorem C51_no_uninitialised_reads : forall libm_exp libm_log nrow ncol fuel ib1 ib2 rt ct seed m1 m2,
  length m1 = (nrow * ncol)%nat -> length m2 = (nrow * ncol)%nat ->
  rcont2 libm_exp libm_log fuel ib1 nrow ncol rt ct seed m1 = rcont2 libm_exp libm_log fuel ib2 nrow ncol rt ct seed m2.
Proof. exact rcont2_indep. Qed.
Print Assumptions C51_no_uninitialised_reads.

(** non-vacuity: valid totals, an admissible libm, a non-trivial run *)
Example C47_hypotheses_met : valid_totals 2 3 [5; 4] [2; 3; 4] /\ libm_ok (fun _ => ofZ 1) (fun _ => fzero) /\ int32 12345.
Proof. exact rcont2_example_valid. Qed.
Example C47_run : match rcont2 (fun _ => flit 1 (-2)) (fun _ => fzero) 2 99 2 3 [5; 4] [2; 3; 4] 12345 (repeat 77 6)
  with COk (M, _) => M | _ => [] end = [1; 1; 1; 2; 3; 1].
Proof. vm_compute. reflexivity. Qed.
