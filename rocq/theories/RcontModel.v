(** Model of the C++ extension phik/simcore/asa159.cpp (Patefield's AS 159).

    - C [int] is Z with an explicit 32-bit range check after every arithmetic
      operation; leaving the range is the value [CErr IntOverflow] (undefined behaviour in C++).
    - C [double] is bit-exact binary64 ([F64.v]).  The libm functions [exp] and [log] are
      arbitrary functions [libm_exp], [libm_log] on binary64: nothing about them is assumed here.
    - Arrays are lists; reads and writes are bounds checked ([CErr OutOfBounds]).
    - Loops carry fuel; exhaustion is the distinct value [CErr OutOfFuel].
    - [key] is always false at entry (phik/simcore/simulation.hpp:32), so the static variables
      [fact] and [ntotal] are recomputed by each call and carry no information between calls. *)
From Coq Require Import ZArith List Bool.
Import ListNotations.
From Verif Require Import F64 SpecRcont.
Open Scope Z_scope.

Inductive cerr := IntOverflow | OutOfBounds | OutOfFuel | IErr (code : Z).
Inductive cres (A : Type) := COk (a : A) | CErr (e : cerr).
Arguments COk {A} _. Arguments CErr {A} _.
Definition cbind {A B} (m : cres A) (f : A -> cres B) : cres B :=
  match m with COk a => f a | CErr e => CErr e end.
Notation "'do' x <- m ; f" := (cbind m (fun x => f)) (at level 200, x name, m at level 100, f at level 200).

Definition ck (z : Z) : cres Z :=
  if (int_min <=? z) && (z <=? int_max) then COk z else CErr IntOverflow.

(** array read / write *)
Definition rd {A} (l : list A) (i : Z) : cres A :=
  if i <? 0 then CErr OutOfBounds
  else match nth_error l (Z.to_nat i) with Some a => COk a | None => CErr OutOfBounds end.
Fixpoint upd {A} (l : list A) (i : nat) (a : A) : list A :=
  match l, i with
  | [], _ => []
  | _ :: l', O => a :: l'
  | b :: l', S i' => b :: upd l' i' a
  end.
Definition wr {A} (l : list A) (i : Z) (a : A) : cres (list A) :=
  if (0 <=? i) && (i <? Z.of_nat (length l)) then COk (upd l (Z.to_nat i) a) else CErr OutOfBounds.

(** 4.656612875E-10 as a binary64 literal (asa159.cpp:436) *)
Definition unif_const : f64 := flit 4503599629229928 (-83).

(** asa159.cpp:377-439 [r8_uniform_01]: returns the variate and the updated seed. C integer
    division truncates towards zero ([Z.quot]). *)
Definition r8_uniform_01 (seed : Z) : cres (f64 * Z) :=
  let k := Z.quot seed 127773 in
  do k1 <- ck (k * 127773);
  do d <- ck (seed - k1);
  do a <- ck (16807 * d);
  do b <- ck (k * 2836);
  do s <- ck (a - b);
  do s' <- (if s <? 0 then ck (s + 2147483647) else COk s);
  COk (fmult (ofZ s') unif_const, s').

(** asa159.cpp:321-373 [i4vec_sum] *)
Fixpoint i4vec_sum_from (acc : Z) (l : list Z) : cres Z :=
  match l with [] => COk acc | a :: l' => do s <- ck (acc + a); i4vec_sum_from s l' end.
Definition i4vec_sum (l : list Z) : cres Z := i4vec_sum_from 0 l.

(** asa159.cpp:660: (int)((double)(ia*id)/(double)(ie) + 0.5), with the product [p = ia*id] already checked *)
Definition fhalf : f64 := flit 1 (-1).
Definition f_trunc (x : f64) : Z := BinarySingleNaN.Btrunc x.
Definition nlm_start (p ie : Z) : Z := f_trunc (fplus (fdiv (ofZ p) (ofZ ie)) fhalf).

(** outcome of the inner decrement loop: found, or left with new nll, y, sumprb, lsm *)
Inductive dres (T : Type) := DFound (n : Z) | DEnd (nll : Z) (y sumprb : T) (lsm : bool).
Arguments DFound {T} n.
Arguments DEnd {T} nll y sumprb lsm.

(** outcome of one pass of the search: found, or everything subtracted *)
Inductive sres (T : Type) := Found (n : Z) | Exhausted (sumprb : T).
Arguments Found {T} n.
Arguments Exhausted {T} sumprb.

Section Rcont2.
Variables libm_exp libm_log : f64 -> f64.

(** asa159.cpp:598-608: fact[0]=0, fact[i] = fact[i-1] + log(i), for i = 1..ntotal *)
Fixpoint fact_from (i : Z) (n : nat) (x : f64) : list f64 :=
  match n with
  | O => []
  | S n' => let x' := fplus x (libm_log (ofZ i)) in x' :: fact_from (i + 1) n' x'
  end.
Definition fact_table (ntotal : Z) : list f64 := fzero :: fact_from 1 (Z.to_nat ntotal) fzero.

(** asa159.cpp:706-735: while (!lsm) { ... }, entered with lsm = false *)
Fixpoint dec_loop (fuel : nat) (ia id ii : Z) (r : f64) (lsp : bool)
    (nll : Z) (y sumprb : f64) {struct fuel} : cres (dres f64) :=
  match fuel with
  | O => CErr OutOfFuel
  | S fuel' =>
      do t <- ck (ii + nll);
      do j <- ck (nll * t);
      if j =? 0 then COk (DEnd nll y sumprb true)
      else
        do nll' <- ck (nll - 1);
        do a <- ck (id - nll');
        do b <- ck (ia - nll');
        do ab <- ck (a * b);
        let y' := fdiv (fmult y (ofZ j)) (ofZ ab) in
        let s' := fplus sumprb y' in
        if fle r s' then COk (DFound nll')
        else if negb lsp then COk (DEnd nll' y' s' false)
        else dec_loop fuel' ia id ii r lsp nll' y' s'
  end.

(** asa159.cpp:683-742: while (!lsp) { ... }, entered with lsp = false *)
Fixpoint inc_loop (fuel dfuel : nat) (ia id ii : Z) (r : f64)
    (nlm nll : Z) (x y sumprb : f64) (lsm : bool) {struct fuel} : cres (sres f64) :=
  match fuel with
  | O => CErr OutOfFuel
  | S fuel' =>
      do a <- ck (id - nlm);
      do b <- ck (ia - nlm);
      do j <- ck (a * b);
      if j =? 0 then
        if lsm then COk (Exhausted sumprb)
        else
          do d <- dec_loop dfuel ia id ii r true nll y sumprb;
          match d with DFound n => COk (Found n) | DEnd _ _ s _ => COk (Exhausted s) end
      else
        do nlm' <- ck (nlm + 1);
        do t <- ck (ii + nlm');
        do den <- ck (nlm' * t);
        let x' := fdiv (fmult x (ofZ j)) (ofZ den) in
        let s' := fplus sumprb x' in
        if fle r s' then COk (Found nlm')
        else if lsm then inc_loop fuel' dfuel ia id ii r nlm' nll x' y s' true
        else
          do d <- dec_loop dfuel ia id ii r false nll y s';
          match d with
          | DFound n => COk (Found n)
          | DEnd nll' y' s'' lsm' => inc_loop fuel' dfuel ia id ii r nlm' nll' x' y' s'' lsm'
          end
  end.

(** asa159.cpp:658-757: for ( ; ; ) { ... }; returns the accepted entry and the seed *)
Fixpoint attempts (fuel : nat) (fact : list f64) (ia ib ic id ie ii : Z) (r : f64) (seed : Z)
    {struct fuel} : cres (Z * Z) :=
  match fuel with
  | O => CErr OutOfFuel
  | S fuel' =>
      do p <- ck (ia * id);
      do nlm <- ck (nlm_start p ie);
      do iap <- ck (ia + 1);
      do idp <- ck (id + 1);
      do igp <- ck (idp - nlm);
      do ihp <- ck (iap - nlm);
      do nlmp <- ck (nlm + 1);
      do iip <- ck (ii + nlmp);
      do f1 <- rd fact (iap - 1);
      do f2 <- rd fact ib;
      do f3 <- rd fact ic;
      do f4 <- rd fact (idp - 1);
      do f5 <- rd fact ie;
      do f6 <- rd fact (nlmp - 1);
      do f7 <- rd fact (igp - 1);
      do f8 <- rd fact (ihp - 1);
      do f9 <- rd fact (iip - 1);
      let x := libm_exp (fminus (fminus (fminus (fminus (fminus
                 (fplus (fplus (fplus f1 f2) f3) f4) f5) f6) f7) f8) f9) in
      if fle r x then COk (nlm, seed)
      else
        do f <- inc_loop (S (Z.to_nat ia)) (S (Z.to_nat ia)) ia id ii r nlm nlm x x x false;
        match f with
        | Found n => COk (n, seed)
        | Exhausted s =>
            do u <- r8_uniform_01 seed;
            attempts fuel' fact ia ib ic id ie ii (fmult s (fst u)) (snd u)
        end
  end.

(** index l + m*nrow, computed in C int *)
Definition midx (nrow l m : nat) : cres Z :=
  do a <- ck (Z.of_nat m * Z.of_nat nrow); ck (Z.of_nat l + a).

(** asa159.cpp:640-648: matrix[l+j*nrow] = 0 for j = m .. ncol-1 ([n] entries) *)
Fixpoint zero_rest (n : nat) (nrow l j : nat) (matrix : list Z) : cres (list Z) :=
  match n with
  | O => COk matrix
  | S n' => do i <- midx nrow l j; do mt <- wr matrix i 0; zero_rest n' nrow l (S j) mt
  end.

Record cstate := mkC { c_ia : Z; c_ic : Z; c_ib : Z; c_jwork : list Z; c_seed : Z; c_mat : list Z }.

(** asa159.cpp:630-763: for (m = 0; m < ncol-1; m++), [n] iterations left *)
Fixpoint col_loop (n : nat) (fuel : nat) (fact : list f64) (nrow ncol l m : nat) (st : cstate) : cres cstate :=
  match n with
  | O => COk st
  | S n' =>
      let ia := c_ia st in
      do id <- rd (c_jwork st) (Z.of_nat m);
      let ie := c_ic st in
      do ic <- ck (c_ic st - id);
      do ib <- ck (ie - ia);
      do ii <- ck (ib - id);
      if ie =? 0 then
        do mt <- zero_rest (ncol - m) nrow l m (c_mat st);
        COk (mkC 0 ic ib (c_jwork st) (c_seed st) mt)
      else
        do u <- r8_uniform_01 (c_seed st);
        do a <- attempts fuel fact ia ib ic id ie ii (fst u) (snd u);
        do i <- midx nrow l m;
        do mt <- wr (c_mat st) i (fst a);
        do ia' <- ck (ia - fst a);
        do jm <- ck (id - fst a);
        do jw <- wr (c_jwork st) (Z.of_nat m) jm;
        col_loop n' fuel fact nrow ncol l (S m) (mkC ia' ic ib jw (snd a) mt)
  end.

Record rstate := mkR { r_jc : Z; r_ib : Z; r_jwork : list Z; r_seed : Z; r_mat : list Z }.

(** asa159.cpp:623-765: for (l = 0; l < nrow-1; l++), [n] iterations left *)
Fixpoint row_loop (n : nat) (fuel : nat) (fact : list f64) (nrowt : list Z) (nrow ncol l : nat) (st : rstate)
    : cres rstate :=
  match n with
  | O => COk st
  | S n' =>
      do nrowtl <- rd nrowt (Z.of_nat l);
      do jc <- ck (r_jc st - nrowtl);
      do c <- col_loop (ncol - 1) fuel fact nrow ncol l 0
                (mkC nrowtl (r_jc st) (r_ib st) (r_jwork st) (r_seed st) (r_mat st));
      do i <- midx nrow l (ncol - 1);
      do mt <- wr (c_mat c) i (c_ia c);
      row_loop n' fuel fact nrowt nrow ncol (S l) (mkR jc (c_ib c) (c_jwork c) (c_seed c) mt)
  end.

(** asa159.cpp:769-772: matrix[nrow-1+j*nrow] = jwork[j] for j = 0 .. ncol-2 *)
Fixpoint last_row (n : nat) (nrow j : nat) (jwork : list Z) (matrix : list Z) : cres (list Z) :=
  match n with
  | O => COk matrix
  | S n' =>
      do i <- midx nrow (nrow - 1) j;
      do v <- rd jwork (Z.of_nat j);
      do mt <- wr matrix i v;
      last_row n' nrow (S j) jwork mt
  end.

(** asa159.cpp:442-778 [rcont2] with *key = false.  [ib0] is the uninitialised value of the local [ib] (l. 507),
    [matrix] the caller's buffer.  [fuel] bounds the passes of the for(;;) loop per cell. The array
    [jwork] has ncol entries in C of which only the first ncol-1 are ever written; here only
    those exist, so that touching the last one is [OutOfBounds]. *)
Definition rcont2 (fuel : nat) (ib0 : Z) (nrow ncol : nat) (nrowt ncolt : list Z) (seed : Z) (matrix : list Z)
    : cres (list Z * Z) :=
  if (nrow <=? 1)%nat then CErr (IErr 1)
  else if (ncol <=? 1)%nat then CErr (IErr 2)
  else if existsb (fun t => t <=? 0) nrowt then CErr (IErr 3)
  else if existsb (fun t => t <=? 0) ncolt then CErr (IErr 4)
  else
    do sc <- i4vec_sum ncolt;
    do sr <- i4vec_sum nrowt;
    if negb (sc =? sr) then CErr (IErr 6)
    else
      do nf <- ck (sc + 1);
      let fact := fact_table sc in
      do st <- row_loop (nrow - 1) fuel fact nrowt nrow ncol 0
                 (mkR sc ib0 (firstn (ncol - 1) ncolt) seed matrix);
      do mt <- last_row (ncol - 1) nrow 0 (r_jwork st) (r_mat st);
      do ilast2 <- midx nrow (nrow - 1) (ncol - 2);
      do v <- rd mt ilast2;
      do w <- ck (r_ib st - v);
      do ilast <- midx nrow (nrow - 1) (ncol - 1);
      do mt' <- wr mt ilast w;
      COk (mt', r_seed st).
End Rcont2.
