(** The table generator of asa159.cpp, with the arithmetic it runs on made a parameter.

    [g_rcont2 M] is the same program as [RcontModel.rcont2] (asa159.cpp:442-778, cited there line by line)
    with the number type, its operations, the int range check and the source of variates taken from the
    record [M].  [rcont2_is_g] states that the bit-exact model is the instance of this program at
    binary64 and 32-bit ints, by computation; the second instance, [ideal u], runs the very same program in
    exact arithmetic, taking its variates from the stream [u]. *)
From Coq Require Import ZArith List Bool Reals.
Import ListNotations.
From Verif Require Import F64 SpecRcont RcontModel.
Open Scope Z_scope.

Record machine := mkM {
  m_T : Type;
  m_add : m_T -> m_T -> m_T; m_sub : m_T -> m_T -> m_T; m_mul : m_T -> m_T -> m_T; m_div : m_T -> m_T -> m_T;
  m_le : m_T -> m_T -> bool;
  m_ofZ : Z -> m_T; m_trunc : m_T -> Z; m_zero : m_T; m_half : m_T;
  m_exp : m_T -> m_T; m_log : m_T -> m_T;
  m_chk : Z -> cres Z;
  m_unif : Z -> cres (m_T * Z) }.

Section Generic.
Variable M : machine.

(** asa159.cpp:321-373 *)
Fixpoint g_i4vec_sum_from (acc : Z) (l : list Z) : cres Z :=
  match l with [] => COk acc | a :: l' => do s <- m_chk M (acc + a); g_i4vec_sum_from s l' end.
Definition g_i4vec_sum (l : list Z) : cres Z := g_i4vec_sum_from 0 l.

(** asa159.cpp:660 *)
Definition g_nlm_start (p ie : Z) : Z := m_trunc M (m_add M (m_div M (m_ofZ M p) (m_ofZ M ie)) (m_half M)).


(** asa159.cpp:598-608: fact[0]=0, fact[i] = fact[i-1] + log(i), for i = 1..ntotal *)
Fixpoint g_fact_from (i : Z) (n : nat) (x : m_T M) : list (m_T M) :=
  match n with
  | O => []
  | S n' => let x' := m_add M x (m_log M (m_ofZ M i)) in x' :: g_fact_from (i + 1) n' x'
  end.
Definition g_fact_table (ntotal : Z) : list (m_T M) := m_zero M :: g_fact_from 1 (Z.to_nat ntotal) (m_zero M).

(** asa159.cpp:706-735: while (!lsm) { ... }, entered with lsm = false *)
Fixpoint g_dec_loop (fuel : nat) (ia id ii : Z) (r : m_T M) (lsp : bool)
    (nll : Z) (y sumprb : m_T M) {struct fuel} : cres (dres (m_T M)) :=
  match fuel with
  | O => CErr OutOfFuel
  | S fuel' =>
      do t <- m_chk M (ii + nll);
      do j <- m_chk M (nll * t);
      if j =? 0 then COk (DEnd nll y sumprb true)
      else
        do nll' <- m_chk M (nll - 1);
        do a <- m_chk M (id - nll');
        do b <- m_chk M (ia - nll');
        do ab <- m_chk M (a * b);
        let y' := m_div M (m_mul M y (m_ofZ M j)) (m_ofZ M ab) in
        let s' := m_add M sumprb y' in
        if m_le M r s' then COk (DFound nll')
        else if negb lsp then COk (DEnd nll' y' s' false)
        else g_dec_loop fuel' ia id ii r lsp nll' y' s'
  end.

(** asa159.cpp:683-742: while (!lsp) { ... }, entered with lsp = false *)
Fixpoint g_inc_loop (fuel dfuel : nat) (ia id ii : Z) (r : m_T M)
    (nlm nll : Z) (x y sumprb : m_T M) (lsm : bool) {struct fuel} : cres (sres (m_T M)) :=
  match fuel with
  | O => CErr OutOfFuel
  | S fuel' =>
      do a <- m_chk M (id - nlm);
      do b <- m_chk M (ia - nlm);
      do j <- m_chk M (a * b);
      if j =? 0 then
        if lsm then COk (Exhausted sumprb)
        else
          do d <- g_dec_loop dfuel ia id ii r true nll y sumprb;
          match d with DFound n => COk (Found n) | DEnd _ _ s _ => COk (Exhausted s) end
      else
        do nlm' <- m_chk M (nlm + 1);
        do t <- m_chk M (ii + nlm');
        do den <- m_chk M (nlm' * t);
        let x' := m_div M (m_mul M x (m_ofZ M j)) (m_ofZ M den) in
        let s' := m_add M sumprb x' in
        if m_le M r s' then COk (Found nlm')
        else if lsm then g_inc_loop fuel' dfuel ia id ii r nlm' nll x' y s' true
        else
          do d <- g_dec_loop dfuel ia id ii r false nll y s';
          match d with
          | DFound n => COk (Found n)
          | DEnd nll' y' s'' lsm' => g_inc_loop fuel' dfuel ia id ii r nlm' nll' x' y' s'' lsm'
          end
  end.

(** asa159.cpp:658-757: for ( ; ; ) { ... }; returns the accepted entry and the seed *)
Fixpoint g_attempts (fuel : nat) (fact : list (m_T M)) (ia ib ic id ie ii : Z) (r : m_T M) (seed : Z)
    {struct fuel} : cres (Z * Z) :=
  match fuel with
  | O => CErr OutOfFuel
  | S fuel' =>
      do p <- m_chk M (ia * id);
      do nlm <- m_chk M (g_nlm_start p ie);
      do iap <- m_chk M (ia + 1);
      do idp <- m_chk M (id + 1);
      do igp <- m_chk M (idp - nlm);
      do ihp <- m_chk M (iap - nlm);
      do nlmp <- m_chk M (nlm + 1);
      do iip <- m_chk M (ii + nlmp);
      do f1 <- rd fact (iap - 1);
      do f2 <- rd fact ib;
      do f3 <- rd fact ic;
      do f4 <- rd fact (idp - 1);
      do f5 <- rd fact ie;
      do f6 <- rd fact (nlmp - 1);
      do f7 <- rd fact (igp - 1);
      do f8 <- rd fact (ihp - 1);
      do f9 <- rd fact (iip - 1);
      let x := m_exp M (m_sub M (m_sub M (m_sub M (m_sub M (m_sub M
                 (m_add M (m_add M (m_add M f1 f2) f3) f4) f5) f6) f7) f8) f9) in
      if m_le M r x then COk (nlm, seed)
      else
        do f <- g_inc_loop (S (Z.to_nat ia)) (S (Z.to_nat ia)) ia id ii r nlm nlm x x x false;
        match f with
        | Found n => COk (n, seed)
        | Exhausted s =>
            do u <- m_unif M seed;
            g_attempts fuel' fact ia ib ic id ie ii (m_mul M s (fst u)) (snd u)
        end
  end.

(** index l + m*nrow, computed in C int *)
Definition g_midx (nrow l m : nat) : cres Z :=
  do a <- m_chk M (Z.of_nat m * Z.of_nat nrow); m_chk M (Z.of_nat l + a).

(** asa159.cpp:640-648: matrix[l+j*nrow] = 0 for j = m .. ncol-1 ([n] entries) *)
Fixpoint g_zero_rest (n : nat) (nrow l j : nat) (matrix : list Z) : cres (list Z) :=
  match n with
  | O => COk matrix
  | S n' => do i <- g_midx nrow l j; do mt <- wr matrix i 0; g_zero_rest n' nrow l (S j) mt
  end.

(** asa159.cpp:630-763: for (m = 0; m < ncol-1; m++), [n] iterations left *)
Fixpoint g_col_loop (n : nat) (fuel : nat) (fact : list (m_T M)) (nrow ncol l m : nat) (st : cstate) : cres cstate :=
  match n with
  | O => COk st
  | S n' =>
      let ia := c_ia st in
      do id <- rd (c_jwork st) (Z.of_nat m);
      let ie := c_ic st in
      do ic <- m_chk M (c_ic st - id);
      do ib <- m_chk M (ie - ia);
      do ii <- m_chk M (ib - id);
      if ie =? 0 then
        do mt <- g_zero_rest (ncol - m) nrow l m (c_mat st);
        COk (mkC 0 ic ib (c_jwork st) (c_seed st) mt)
      else
        do u <- m_unif M (c_seed st);
        do a <- g_attempts fuel fact ia ib ic id ie ii (fst u) (snd u);
        do i <- g_midx nrow l m;
        do mt <- wr (c_mat st) i (fst a);
        do ia' <- m_chk M (ia - fst a);
        do jm <- m_chk M (id - fst a);
        do jw <- wr (c_jwork st) (Z.of_nat m) jm;
        g_col_loop n' fuel fact nrow ncol l (S m) (mkC ia' ic ib jw (snd a) mt)
  end.

(** asa159.cpp:623-765: for (l = 0; l < nrow-1; l++), [n] iterations left *)
Fixpoint g_row_loop (n : nat) (fuel : nat) (fact : list (m_T M)) (nrowt : list Z) (nrow ncol l : nat) (st : rstate)
    : cres rstate :=
  match n with
  | O => COk st
  | S n' =>
      do nrowtl <- rd nrowt (Z.of_nat l);
      do jc <- m_chk M (r_jc st - nrowtl);
      do c <- g_col_loop (ncol - 1) fuel fact nrow ncol l 0
                (mkC nrowtl (r_jc st) (r_ib st) (r_jwork st) (r_seed st) (r_mat st));
      do i <- g_midx nrow l (ncol - 1);
      do mt <- wr (c_mat c) i (c_ia c);
      g_row_loop n' fuel fact nrowt nrow ncol (S l) (mkR jc (c_ib c) (c_jwork c) (c_seed c) mt)
  end.

(** asa159.cpp:769-772: matrix[nrow-1+j*nrow] = jwork[j] for j = 0 .. ncol-2 *)
Fixpoint g_last_row (n : nat) (nrow j : nat) (jwork : list Z) (matrix : list Z) : cres (list Z) :=
  match n with
  | O => COk matrix
  | S n' =>
      do i <- g_midx nrow (nrow - 1) j;
      do v <- rd jwork (Z.of_nat j);
      do mt <- wr matrix i v;
      g_last_row n' nrow (S j) jwork mt
  end.

(** asa159.cpp:442-778 [g_rcont2] with *key = false.  [ib0] is the uninitialised value of the local [ib] (l. 507),
    [matrix] the caller's buffer.  [fuel] bounds the passes of the for(;;) loop per cell. The array
    [jwork] has ncol entries in C of which only the first ncol-1 are ever written; here only
    those exist, so that touching the last one is [OutOfBounds]. *)
Definition g_rcont2 (fuel : nat) (ib0 : Z) (nrow ncol : nat) (nrowt ncolt : list Z) (seed : Z) (matrix : list Z)
    : cres (list Z * Z) :=
  if (nrow <=? 1)%nat then CErr (IErr 1)
  else if (ncol <=? 1)%nat then CErr (IErr 2)
  else if existsb (fun t => t <=? 0) nrowt then CErr (IErr 3)
  else if existsb (fun t => t <=? 0) ncolt then CErr (IErr 4)
  else
    do sc <- g_i4vec_sum ncolt;
    do sr <- g_i4vec_sum nrowt;
    if negb (sc =? sr) then CErr (IErr 6)
    else
      do nf <- m_chk M (sc + 1);
      let fact := g_fact_table sc in
      do st <- g_row_loop (nrow - 1) fuel fact nrowt nrow ncol 0
                 (mkR sc ib0 (firstn (ncol - 1) ncolt) seed matrix);
      do mt <- g_last_row (ncol - 1) nrow 0 (r_jwork st) (r_mat st);
      do ilast2 <- g_midx nrow (nrow - 1) (ncol - 2);
      do v <- rd mt ilast2;
      do w <- m_chk M (r_ib st - v);
      do ilast <- g_midx nrow (nrow - 1) (ncol - 1);
      do mt' <- wr mt ilast w;
      COk (mt', r_seed st).

End Generic.

(** binary64, 32-bit ints and the program's own generator *)
Definition f64_machine (libm_exp libm_log : f64 -> f64) : machine :=
  mkM f64 fplus fminus fmult fdiv fle ofZ f_trunc fzero fhalf libm_exp libm_log ck r8_uniform_01.

(** the bit-exact model is this program on that machine: after unfolding the record the two texts are the same *)
Ltac same c g :=
  cbv beta iota delta [c g f64_machine m_T m_add m_sub m_mul m_div m_le m_ofZ m_trunc m_zero m_half m_exp m_log m_chk m_unif]; reflexivity.
Section Link.
Variables libm_exp libm_log : f64 -> f64.
Notation FM := (f64_machine libm_exp libm_log).
Lemma link_sum : g_i4vec_sum FM = i4vec_sum. Proof. unfold g_i4vec_sum, i4vec_sum. same g_i4vec_sum_from i4vec_sum_from. Qed.
Lemma link_nlm : g_nlm_start FM = nlm_start. Proof. same g_nlm_start nlm_start. Qed.
Lemma link_fact_from : g_fact_from FM = fact_from libm_log. Proof. same g_fact_from fact_from. Qed.
Lemma link_fact : g_fact_table FM = fact_table libm_log. Proof. unfold g_fact_table, fact_table. rewrite link_fact_from. reflexivity. Qed.
Lemma link_dec : g_dec_loop FM = dec_loop. Proof. same g_dec_loop dec_loop. Qed.
Lemma link_inc : g_inc_loop FM = inc_loop. Proof. unfold g_inc_loop. rewrite link_dec. same g_inc_loop inc_loop. Qed.
Lemma link_attempts : g_attempts FM = attempts libm_exp. Proof. unfold g_attempts. rewrite link_inc, link_nlm. same g_attempts attempts. Qed.
Lemma link_midx : g_midx FM = midx. Proof. same g_midx midx. Qed.
Lemma link_zero : g_zero_rest FM = zero_rest. Proof. unfold g_zero_rest. rewrite link_midx. same g_zero_rest zero_rest. Qed.
Lemma link_col : g_col_loop FM = col_loop libm_exp.
Proof. unfold g_col_loop. rewrite link_attempts, link_midx, link_zero. same g_col_loop col_loop. Qed.
Lemma link_row : g_row_loop FM = row_loop libm_exp.
Proof. unfold g_row_loop. rewrite link_col, link_midx. same g_row_loop row_loop. Qed.
Lemma link_last : g_last_row FM = last_row. Proof. unfold g_last_row. rewrite link_midx. same g_last_row last_row. Qed.
Lemma rcont2_is_g : rcont2 libm_exp libm_log = g_rcont2 FM.
Proof. unfold g_rcont2. rewrite link_sum, link_fact, link_row, link_last, link_midx. same g_rcont2 rcont2. Qed.
End Link.

(** exact reals, unbounded integers, variates from the stream [u] (the seed counts the variates used) *)
Definition rle_bool (x y : R) : bool := if Rle_dec x y then true else false.
Definition ideal (u : nat -> R) : machine :=
  mkM R Rplus Rminus Rmult Rdiv rle_bool IZR (fun x => up x - 1) 0%R (/ 2)%R exp ln (fun z => COk z)
      (fun p => COk (u (Z.to_nat p), p + 1)).
