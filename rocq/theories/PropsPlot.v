(** C67-C70, C75: plots, tick labels, number of cores, resource files, the histogram of plot_hist_and_func. *)
From Coq Require Import String Ascii ZArith List Bool Reals Lra Lia.
Import ListNotations.
From Verif Require Import F64 Base Cells BinModel Num PhikModel ReportModel SpecReport PropsOut LinspaceProofs PairMatProofs BivProofs SpecArray.
Open Scope list_scope.

Definition rect (a : arr2) : Prop := length (a_rows a) = a_nr a /\ forall r, In r (a_rows a) -> length r = a_nc a.
Section Plot.
Variables (fmt0 fmt2 : num -> string).
Notation plot := (plot_correlation_matrix fmt0 fmt2).
Notation tick := (tick fmt0).
Notation note := (note_text fmt2).

Lemma flip_at : forall a j k, rect a -> (j < a_nr a)%nat -> (k < a_nc a)%nat -> at2 (flip a) j (a_nc a - 1 - k) = at2 a j k.
Proof.
  intros a j k (L & R) Hj Hk. unfold at2, flip. cbn [a_rows]. assert (Hr : In (nth j (a_rows a) []) (a_rows a)) by (apply nth_In; lia).
  change (@nil num) with (rev (@nil num)) at 1. rewrite map_nth. rewrite rev_nth by (rewrite (R _ Hr); lia). rewrite (R _ Hr). f_equal. lia.
Qed.
Lemma ticks_nth : forall n l k, (k < length l)%nat -> nth k (ticks n l) (0%nat, EmptyString) = (if Nat.eqb (length l) (n + 1) then 2 * k else 2 * k + 1, nth k l EmptyString)%nat.
Proof.
  intros n l k Hk. unfold ticks. destruct (Nat.eqb (length l) (n + 1)); rewrite combine_nth by (rewrite map_length, seq_length; reflexivity); f_equal.
  - rewrite (nth_indep _ 0%nat ((fun k => 2 * k)%nat 0%nat)) by (rewrite map_length, seq_length; exact Hk). rewrite map_nth, seq_nth by exact Hk. reflexivity.
  - rewrite (nth_indep _ 0%nat ((fun k => 2 * k + 1)%nat 0%nat)) by (rewrite map_length, seq_length; exact Hk). rewrite (map_nth (fun k => 2 * k + 1)%nat), seq_nth by exact Hk. reflexivity.
Qed.
Lemma ticks_length : forall n l, length (ticks n l) = length l.
Proof. intros n l. unfold ticks. destruct (Nat.eqb _ _); rewrite combine_length, map_length, seq_length; apply Nat.min_id. Qed.

(** what a successful call consists of *)
Lemma plot_ok : forall colors xl yl vmin vmax top numbers both idl lay, plot colors xl yl vmin vmax top numbers both idl = Ok lay ->
  let numbers0 := match numbers with Some n => n | None => colors end in
  let both0 := match numbers with Some _ => both | None => false end in
  let xl' := if idl then rev xl else xl in
  let c' := if idl then flip colors else colors in
  let n' := if idl then flip numbers0 else numbers0 in
  (length yl = a_nr colors \/ length yl = a_nr colors + 1)%nat /\ (length xl = a_nc colors \/ length xl = a_nc colors + 1)%nat /\
  (forall n, numbers = Some n -> a_nr n = length yl /\ a_nc n = length xl) /\
  xticks lay = ticks (a_nc colors) (map (tick top) xl') /\ yticks lay = ticks (a_nr colors) (map (tick top) yl) /\ drawn lay = c' /\
  mapM (fun ij => if Nat.ltb (snd ij) (a_nr colors) && Nat.ltb (fst ij) (a_nc colors) then
            Ok (ij, map (fun m => note (at2 m (snd ij) (fst ij))) (if both0 then [n'; c'] else [n']), white vmin vmax (at2 c' (snd ij) (fst ij)))
          else Raise IndexError) (list_prod (seq 0 (a_nc numbers0)) (seq 0 (a_nr numbers0))) = Ok (notes lay).
Proof.
  intros colors xl yl vmin vmax top numbers both idl lay H. unfold plot_correlation_matrix in H.
  destruct (negb (Nat.eqb (a_nr colors) (length yl) || Nat.eqb (a_nr colors + 1) (length yl))) eqn:CY; [discriminate|].
  destruct (negb (Nat.eqb (a_nc colors) (length xl) || Nat.eqb (a_nc colors + 1) (length xl))) eqn:CX; [discriminate|].
  apply negb_false_iff, orb_true_iff in CY, CX. rewrite !Nat.eqb_eq in CY, CX.
  assert (NB : exists n0 b0, n0 = match numbers with Some n => n | None => colors end /\ b0 = match numbers with Some _ => both | None => false end /\ (forall n, numbers = Some n -> a_nr n = length yl /\ a_nc n = length xl) /\
     match numbers with None => Ok (colors, false) | Some n => if negb (Nat.eqb (a_nr n) (length yl)) then Raise AssertionError else if negb (Nat.eqb (a_nc n) (length xl)) then Raise AssertionError else Ok (n, both) end = Ok (n0, b0)).
  { destruct numbers as [n|]; [|exists colors, false; split; [reflexivity|]; split; [reflexivity|]; split; [discriminate|reflexivity]].
    destruct (Nat.eqb_spec (a_nr n) (length yl)) as [E1|]; [|discriminate]. destruct (Nat.eqb_spec (a_nc n) (length xl)) as [E2|]; [|discriminate]. exists n, both. split; [reflexivity|]. split; [reflexivity|]. split; [intros n' X; injection X as <-; auto|reflexivity]. }
  destruct NB as (n0 & b0 & En & Eb & HN & EQ). rewrite EQ in H. clear EQ. cbn [rbind fst snd] in H. cbv zeta. rewrite <- En, <- Eb.
  destruct (idl && Nat.eqb (a_nr colors) 0); [discriminate|]. destruct (single_label _) as [[]|]; [|discriminate]. cbn [rbind] in H. destruct (single_label _) as [[]|]; [|discriminate]. cbn [rbind] in H.
  assert (F1 : forall a, a_nr (if idl then flip a else a) = a_nr a) by (intros; destruct idl; reflexivity). assert (F2 : forall a, a_nc (if idl then flip a else a) = a_nc a) by (intros; destruct idl; reflexivity).
  rewrite !F1, !F2 in H. destruct (mapM _ _) as [ns|] eqn:EM; [|discriminate]. cbn [rbind] in H. injection H as <-. cbn [xticks yticks drawn notes].
  split; [lia|]. split; [lia|]. split; [exact HN|]. split; [reflexivity|]. split; [reflexivity|]. split; [reflexivity|]. reflexivity.
Qed.
(** C67: one label per row and column: the column k is drawn at one place together with its label, its colours and its numbers *)
Theorem C67_layout : forall colors xl yl vmin vmax top numbers both idl lay j k, rect colors -> (forall n, numbers = Some n -> rect n) ->
  plot colors xl yl vmin vmax top numbers both idl = Ok lay -> length xl = a_nc colors -> length yl = a_nr colors -> (j < a_nr colors)%nat -> (k < a_nc colors)%nat ->
  let p := drawn_at idl (a_nc colors) k in
  nth p (xticks lay) (0%nat, EmptyString) = (2 * p + 1, tick top (nth k xl (LStr "")))%nat /\
  nth j (yticks lay) (0%nat, EmptyString) = (2 * j + 1, tick top (nth j yl (LStr "")))%nat /\
  at2 (drawn lay) j p = at2 colors j k /\
  (forall texts w, In (p, j, texts, w) (notes lay) <->
     w = white vmin vmax (at2 colors j k) /\
     texts = match numbers with None => [note (at2 colors j k)] | Some n => if both then [note (at2 n j k); note (at2 colors j k)] else [note (at2 n j k)] end).
Proof.
  intros colors xl yl vmin vmax top numbers both idl lay j k RC RN H LX LY Hj Hk p. destruct (plot_ok _ _ _ _ _ _ _ _ _ _ H) as (_ & _ & HN & XT & YT & DR & EM). clear H.
  assert (Hp : (p < a_nc colors)%nat) by (unfold p, drawn_at; destruct idl; lia).
  set (n0 := match numbers with Some n => n | None => colors end) in *. assert (DN : a_nr n0 = a_nr colors /\ a_nc n0 = a_nc colors). { unfold n0. destruct numbers as [n|]; [destruct (HN n eq_refl); lia|auto]. } destruct DN as (D1 & D2).
  assert (RN0 : rect n0) by (unfold n0; destruct numbers as [n|]; [apply RN; reflexivity|exact RC]).
  assert (AC : at2 (if idl then flip colors else colors) j p = at2 colors j k) by (unfold p, drawn_at; destruct idl; [apply flip_at; assumption|reflexivity]).
  assert (AN : at2 (if idl then flip n0 else n0) j p = at2 n0 j k) by (unfold p, drawn_at; destruct idl; [rewrite <- D2; apply flip_at; [exact RN0|lia|lia]|reflexivity]).
  split; [|split; [|split]].
  - rewrite XT, ticks_nth by (rewrite map_length; destruct idl; rewrite ?rev_length; lia). rewrite map_length. replace (length (if idl then rev xl else xl)) with (length xl) by (destruct idl; rewrite ?rev_length; reflexivity).
    rewrite (proj2 (Nat.eqb_neq _ _)) by lia. f_equal. rewrite (nth_indep _ EmptyString (tick top (LStr ""))) by (rewrite map_length; destruct idl; rewrite ?rev_length; lia). rewrite map_nth. f_equal.
    unfold p, drawn_at. destruct idl; [|reflexivity]. rewrite rev_nth by lia. f_equal. lia.
  - rewrite YT, ticks_nth by (rewrite map_length; lia). rewrite map_length, (proj2 (Nat.eqb_neq _ _)) by lia. f_equal. rewrite (nth_indep _ EmptyString (tick top (LStr ""))) by (rewrite map_length; lia). apply map_nth.
  - rewrite DR. exact AC.
  - rewrite D1, D2 in EM. intros texts w. rewrite (PairMatProofs.mapM_In _ _ _ _ _ EM). split.
    + intros ((i', j') & Hin & Hf). cbn [fst snd] in Hf. destruct (_ && _); [|discriminate]. apply Ok_inj in Hf. injection Hf as -> -> <- <-. rewrite AC. split; [reflexivity|].
      destruct numbers as [n|]; [destruct both|]; cbn [map]; rewrite ?AC, ?AN; reflexivity.
    + intros (-> & ->). exists (p, j). split; [apply in_prod; apply in_seq; lia|]. cbn [fst snd]. rewrite (proj2 (Nat.ltb_lt _ _) Hj), (proj2 (Nat.ltb_lt _ _) Hp). cbn [andb]. f_equal. rewrite AC. f_equal. f_equal.
      destruct numbers as [n|]; [destruct both|]; cbn [map]; rewrite ?AC, ?AN; reflexivity.
Qed.
(** one label more than columns (bin edges): the labels k and k+1 are drawn at the two edges of column k *)
Theorem C67_edge_labels : forall colors xl yl vmin vmax top numbers both idl lay k, plot colors xl yl vmin vmax top numbers both idl = Ok lay -> length xl = (a_nc colors + 1)%nat -> (k < a_nc colors)%nat ->
  let p := drawn_at idl (a_nc colors) k in let edge i := (2 * i)%nat in
  let lab i := tick top (nth i xl (LStr "")) in
  if idl then nth p (xticks lay) (0%nat, EmptyString) = (edge p, lab (k + 1)%nat) /\ nth (p + 1) (xticks lay) (0%nat, EmptyString) = (edge (p + 1)%nat, lab k)
  else nth p (xticks lay) (0%nat, EmptyString) = (edge p, lab k) /\ nth (p + 1) (xticks lay) (0%nat, EmptyString) = (edge (p + 1)%nat, lab (k + 1)%nat).
Proof.
  intros colors xl yl vmin vmax top numbers both idl lay k H LX Hk p edge lab. destruct (plot_ok _ _ _ _ _ _ _ _ _ _ H) as (_ & _ & _ & XT & _).
  assert (T : forall i, (i < a_nc colors + 1)%nat -> nth i (xticks lay) (0%nat, EmptyString) = (edge i, if idl then lab (a_nc colors - i)%nat else lab i)).
  { intros i Hi. rewrite XT, ticks_nth by (rewrite map_length; destruct idl; rewrite ?rev_length; lia). rewrite map_length. replace (length (if idl then rev xl else xl)) with (length xl) by (destruct idl; rewrite ?rev_length; reflexivity).
    rewrite LX, Nat.eqb_refl. f_equal. rewrite (nth_indep _ EmptyString (tick top (LStr ""))) by (rewrite map_length; destruct idl; rewrite ?rev_length; lia). rewrite map_nth. unfold lab. destruct idl; [|reflexivity]. rewrite rev_nth by lia. do 2 f_equal. lia. }
  unfold p, drawn_at. destruct idl; rewrite !T by lia; split; f_equal; unfold lab; do 2 f_equal; lia.
Qed.
(** wrong numbers of labels are rejected *)
Theorem C67_rejects_labels : forall colors xl yl vmin vmax top numbers both idl,
  (length yl <> a_nr colors /\ length yl <> a_nr colors + 1)%nat \/ (length xl <> a_nc colors /\ length xl <> a_nc colors + 1)%nat ->
  plot colors xl yl vmin vmax top numbers both idl = Raise AssertionError.
Proof.
  intros colors xl yl vmin vmax top numbers both idl H. unfold plot_correlation_matrix. destruct (negb (Nat.eqb (a_nr colors) (length yl) || Nat.eqb (a_nr colors + 1) (length yl))) eqn:CY; [reflexivity|].
  destruct (negb (Nat.eqb (a_nc colors) (length xl) || Nat.eqb (a_nc colors + 1) (length xl))) eqn:CX; [reflexivity|]. exfalso. apply negb_false_iff, orb_true_iff in CY, CX. rewrite !Nat.eqb_eq in CY, CX. lia.
Qed.
(** ... and so are numbers that do not have one row and one column per label; with edge labels there are then more numbers than colours *)
Theorem C67_rejects_numbers : forall colors xl yl vmin vmax top n both idl, a_nr n <> length yl \/ a_nc n <> length xl -> plot colors xl yl vmin vmax top (Some n) both idl = Raise AssertionError.
Proof.
  intros colors xl yl vmin vmax top n both idl H. unfold plot_correlation_matrix. destruct (negb _); [reflexivity|]. destruct (negb _); [reflexivity|].
  destruct (Nat.eqb_spec (a_nr n) (length yl)) as [E1|]; [|reflexivity]. destruct (Nat.eqb_spec (a_nc n) (length xl)) as [E2|]; [|reflexivity]. exfalso. tauto.
Qed.
Theorem C67_edges_and_numbers : forall colors xl yl vmin vmax top n both idl, (0 < length yl)%nat -> (0 < length xl)%nat -> length yl = (a_nr colors + 1)%nat \/ length xl = (a_nc colors + 1)%nat ->
  forall lay, plot colors xl yl vmin vmax top (Some n) both idl <> Ok lay.
Proof.
  intros colors xl yl vmin vmax top n both idl PY PX E lay H. destruct (plot_ok _ _ _ _ _ _ _ _ _ _ H) as (_ & _ & HN & _ & _ & _ & EM). destruct (HN n eq_refl) as (N1 & N2).
  apply Base.mapM_ok in EM. assert (IN : In (length xl - 1, length yl - 1)%nat (list_prod (seq 0 (a_nc n)) (seq 0 (a_nr n)))) by (apply in_prod; apply in_seq; lia).
  revert EM IN. generalize (notes lay). generalize (list_prod (seq 0 (a_nc n)) (seq 0 (a_nr n))). intros l1 l2 F. induction F as [|a b l1 l2 Hab F IH]; intros IN; [destruct IN|]. destruct IN as [->|IN]; [|exact (IH IN)]. cbn [fst snd] in Hab.
  destruct (Nat.ltb_spec (length yl - 1) (a_nr colors)); [|discriminate]. destruct (Nat.ltb_spec (length xl - 1) (a_nc colors)); [|discriminate]. lia.
Qed.
(** everything else is accepted (a single label must be a string) *)
Theorem C67_accepts : forall colors xl yl vmin vmax top numbers both idl, (0 < a_nr colors)%nat ->
  (length yl = a_nr colors \/ length yl = a_nr colors + 1 /\ numbers = None)%nat -> (length xl = a_nc colors \/ length xl = a_nc colors + 1 /\ numbers = None)%nat ->
  (forall n, numbers = Some n -> a_nr n = a_nr colors /\ a_nc n = a_nc colors) -> (forall x, xl <> [LNum x]) -> (forall x, yl <> [LNum x]) ->
  exists lay, plot colors xl yl vmin vmax top numbers both idl = Ok lay.
Proof.
  intros colors xl yl vmin vmax top numbers both idl HR HY HX HN SX SY. unfold plot_correlation_matrix.
  assert (CY : Nat.eqb (a_nr colors) (length yl) || Nat.eqb (a_nr colors + 1) (length yl) = true) by (apply orb_true_iff; rewrite !Nat.eqb_eq; lia). rewrite CY. cbn [negb].
  assert (CX : Nat.eqb (a_nc colors) (length xl) || Nat.eqb (a_nc colors + 1) (length xl) = true) by (apply orb_true_iff; rewrite !Nat.eqb_eq; lia). rewrite CX. cbn [negb].
  set (n0 := match numbers with Some n => n | None => colors end). assert (D : a_nr n0 = a_nr colors /\ a_nc n0 = a_nc colors) by (unfold n0; destruct numbers as [n|]; [exact (HN n eq_refl)|auto]).
  assert (NB : match numbers with None => Ok (colors, false) | Some n => if negb (Nat.eqb (a_nr n) (length yl)) then Raise AssertionError else if negb (Nat.eqb (a_nc n) (length xl)) then Raise AssertionError else Ok (n, both) end = Ok (n0, match numbers with Some _ => both | None => false end)).
  { unfold n0 in *. destruct numbers as [n|]; [|reflexivity]. destruct D as (D1 & D2). destruct HY as [HY|[_ X]]; [|discriminate]. destruct HX as [HX|[_ X]]; [|discriminate]. rewrite (proj2 (Nat.eqb_eq (a_nr n) (length yl))) by lia. rewrite (proj2 (Nat.eqb_eq (a_nc n) (length xl))) by lia. reflexivity. }
  rewrite NB. cbn [rbind fst snd]. rewrite (proj2 (Nat.eqb_neq (a_nr colors) 0)) by lia. rewrite andb_false_r.
  assert (SL : forall l, (forall x, l <> [LNum x]) -> single_label l = Ok tt) by (intros [|[x|s] [|]] X; try reflexivity; exfalso; exact (X x eq_refl)).
  rewrite SL. 2:{ destruct idl; [|exact SX]. intros x X. apply (SX x). rewrite <- (rev_involutive xl), X. reflexivity. } cbn [rbind]. rewrite SL by exact SY. cbn [rbind].
  assert (F1 : forall a, a_nr (if idl then flip a else a) = a_nr a) by (intros; destruct idl; reflexivity). assert (F2 : forall a, a_nc (if idl then flip a else a) = a_nc a) by (intros; destruct idl; reflexivity).
  rewrite !F1, !F2. destruct D as (-> & ->). eexists. rewrite mapM_all_ok with (g := fun ij => (ij, map (fun m => note (at2 m (snd ij) (fst ij))) (if match numbers with Some _ => both | None => false end then [if idl then flip n0 else n0; if idl then flip colors else colors] else [if idl then flip n0 else n0]), white vmin vmax (at2 (if idl then flip colors else colors) (snd ij) (fst ij)))); [cbn [rbind]; reflexivity|].
  intros [i j] Hij. apply in_prod_iff in Hij. rewrite !in_seq in Hij. cbn [fst snd]. rewrite (proj2 (Nat.ltb_lt _ _)) by lia. rewrite (proj2 (Nat.ltb_lt _ _)) by lia. reflexivity.
Qed.
(** a single numeric label *)
Theorem C67_single_number : forall colors x yl vmin vmax top both idl, (0 < a_nr colors)%nat -> length yl = a_nr colors -> a_nc colors = 1%nat ->
  plot colors [LNum x] yl vmin vmax top None both idl = Raise TypeError.
Proof.
  intros colors x yl vmin vmax top both idl HR HY HC. unfold plot_correlation_matrix. rewrite HY, HC, Nat.eqb_refl. cbn [orb negb length Nat.eqb rbind fst snd]. rewrite (proj2 (Nat.eqb_neq (a_nr colors) 0)) by lia. rewrite andb_false_r. destruct idl; reflexivity.
Qed.

(** what is written in a cell: the word NaN for a missing number, and else the number with two decimals *)
Theorem C67_cell_text : note NaN = "NaN"%string /\ forall x, isnan x = false -> note x = fmt2 x.
Proof. split; [reflexivity|]. intros x H. unfold note_text. rewrite H. reflexivity. Qed.

(** * C68 *)
Lemma substring_length : forall s n, String.length (substring 0 n s) = Nat.min n (String.length s).
Proof. induction s as [|a s IH]; intros [|n]; cbn [substring String.length Nat.min]; try reflexivity. rewrite IH. reflexivity. Qed.
Lemma append_length : forall a b, String.length (a ++ b) = (String.length a + String.length b)%nat.
Proof. induction a as [|c a IH]; intros b; cbn [append String.length]; [reflexivity|]. rewrite IH. reflexivity. Qed.
Theorem C68_length : forall top s, String.length (tick top (LStr s)) = if (top <? Z.of_nat (String.length s))%Z then (Nat.min 17 (String.length s) + 3)%nat else String.length s.
Proof. intros top s. unfold ReportModel.tick. destruct (_ <? _)%Z; [|reflexivity]. rewrite append_length, substring_length. reflexivity. Qed.
(** top >= 20: never more than top characters *)
Theorem C68_top_20 : forall top s, (20 <= top)%Z -> (Z.of_nat (String.length (tick top (LStr s))) <= top)%Z.
Proof. intros top s H. rewrite C68_length. destruct (Z.ltb_spec top (Z.of_nat (String.length s))); lia. Qed.
(** top < 20: every label that is cut is longer than top *)
Theorem C68_longer_than_top : forall top s, (top < 20)%Z -> (top < Z.of_nat (String.length s))%Z -> (top < Z.of_nat (String.length (tick top (LStr s))))%Z.
Proof. intros top s H1 H2. rewrite C68_length, (proj2 (Z.ltb_lt _ _) H2). lia. Qed.
(** a label that fits is shown as it is; labels with the same first 17 characters look the same when cut *)
Theorem C68_short : forall top s, (Z.of_nat (String.length s) <= top)%Z -> tick top (LStr s) = s.
Proof. intros top s H. unfold ReportModel.tick. rewrite (proj2 (Z.ltb_ge _ _) H). reflexivity. Qed.
Theorem C68_collision : forall top p s1 s2, String.length p = 17%nat -> (top < 17 + Z.of_nat (String.length s1))%Z -> (top < 17 + Z.of_nat (String.length s2))%Z -> tick top (LStr (p ++ s1)) = (p ++ "...")%string /\ tick top (LStr (p ++ s2)) = (p ++ "...")%string.
Proof.
  assert (P : forall p s, substring 0 (String.length p) (p ++ s) = p) by (induction p as [|a p IH]; intros s; cbn [append substring String.length]; [destruct s; reflexivity|rewrite IH; reflexivity]).
  intros top p s1 s2 L H1 H2. unfold ReportModel.tick. rewrite !append_length, L, !(proj2 (Z.ltb_lt _ _)) by lia. rewrite <- L, !P. auto.
Qed.
End Plot.

(** * C69 *)
Theorem C69_cores : forall os n, (1 <= n)%Z ->
  (os <> "nt"%string -> n_cores os n = n) /\ (os = "nt"%string -> n_cores os n = if (64 <=? n)%Z then 60%Z else 1%Z) /\ (1 <= n_cores os n)%Z /\ (os = "nt"%string -> (n_cores os n <= 60)%Z) /\ (n_cores os n <= n)%Z.
Proof.
  intros os n H. unfold n_cores. destruct (String.eqb_spec os "nt") as [->|N]; (split; [intros X; congruence|]); (split; [intros X; congruence|]); destruct (Z.leb_spec 64 n); lia || (split; [lia|]; split; [congruence|lia]).
Qed.

(** * C70 *)
Theorem C70_resource : forall P (registered : list (string * P)) ex name p, resource registered ex name = Ok p <-> assoc name registered = Some p /\ ex p = true.
Proof.
  intros P registered ex name p. unfold resource. destruct (assoc name registered) as [q|]; [|split; [discriminate|intros (X & _); discriminate]]. destruct (ex q) eqn:EX; split; try discriminate.
  - intros H. injection H as ->. auto.
  - intros (H & _). congruence.
  - intros (H & Y). congruence.
Qed.
Theorem C70_not_found : forall P (registered : list (string * P)) ex name e, resource registered ex name = Raise e <-> e = FileNotFoundError /\ ~ exists p, assoc name registered = Some p /\ ex p = true.
Proof.
  intros P registered ex name e. unfold resource. destruct (assoc name registered) as [q|].
  - destruct (ex q) eqn:EX; split; try discriminate.
    + intros (_ & N). exfalso. apply N. eauto.
    + intros H. injection H as <-. split; [reflexivity|]. intros (p & X & Y). congruence.
    + intros (-> & _). reflexivity.
  - split; [intros H; injection H as <-; split; [reflexivity|]; intros (p & X & _); discriminate|intros (-> & _); reflexivity].
Qed.

(** * C75: the bin edges used by plot_hist_and_func *)
Lemma linspace_len : forall a b n l, linspace a b n = Ok l -> length l = Z.to_nat n /\ ((1 < n)%Z -> nth (Z.to_nat n - 1) l fzero = b).
Proof.
  intros a b n l H. unfold linspace in H. destruct (n <? 0)%Z; [discriminate|]. cbv zeta in H. destruct (Z.ltb_spec 1 n) as [L|L]; apply Ok_inj in H; subst l.
  - split; [rewrite set_last_length, map_length, seq_length; reflexivity|]. intros _. match goal with |- nth _ (set_last ?y b) _ = _ => assert (E : length y = Z.to_nat n) by (rewrite map_length, seq_length; reflexivity) end. rewrite <- E at 1. apply set_last_last. rewrite E. lia.
  - split; [rewrite map_length, seq_length; reflexivity|lia].
Qed.
Lemma linspace_ok : forall a b n, (0 <= n)%Z -> exists l, linspace a b n = Ok l.
Proof. intros a b n H. unfold linspace. rewrite (proj2 (Z.ltb_ge _ _) H). cbv zeta. eexists. reflexivity. Qed.
(** no binning, no limits: the number of records divided by 50 is the number of bins, so fewer than 50 records always fail *)
Definition no_binning (xb : xbins_arg) : Prop := xb = XFalse \/ xb = XNum 0 \/ exists l, xb = XEdges l /\ forall v, In v l -> feqb v fzero = true.
Lemma no_binning_any : forall xb, no_binning xb <-> np_any xb = false.
Proof.
  intros xb. unfold no_binning. split.
  - intros [->|[->|(l & -> & H)]]; [reflexivity|reflexivity|]. cbn [np_any]. induction l as [|v l IH]; [reflexivity|]. cbn [existsb]. rewrite (H v (or_introl eq_refl)). cbn [negb orb]. apply IH. intros w W. apply H. right. exact W.
  - destruct xb as [|n|l]; cbn [np_any]; intros H; [left; reflexivity| |].
    + right; left. apply negb_false_iff, Z.eqb_eq in H. subst n. reflexivity.
    + right; right. exists l. split; [reflexivity|]. intros v V. destruct (feqb v fzero) eqn:F; [reflexivity|]. rewrite <- H. apply existsb_exists. exists v. split; [exact V|]. rewrite F. reflexivity.
Qed.
Theorem C75_default : forall data xb, no_binning xb -> data <> [] ->
  ((length data < 50)%nat -> plot_hist_edges data xb None = Raise IndexError) /\
  ((50 <= length data)%nat -> exists edges, plot_hist_edges data xb None = Ok edges /\ length edges = (length data / 50 + 1)%nat /\ last edges fzero = fmaxl data).
Proof.
  intros data xb NA ND. apply no_binning_any in NA. unfold plot_hist_edges. rewrite NA. assert (NE : forall f, np_extreme f data = Ok (f data)) by (intros f; destruct data; [contradiction|reflexivity]). rewrite !NE. cbn [rbind].
  destruct (linspace_ok (fminl data) (fmaxl data) (Z.of_nat (length data / 50 + 1)) ltac:(lia)) as (l & EL). rewrite EL. cbn [rbind]. destruct (linspace_len _ _ _ _ EL) as (LL & LA). rewrite Nat2Z.id in LL, LA. split; intros H.
  - rewrite Nat.div_small in LL by exact H. rewrite LL. reflexivity.
  - assert (G : (1 <= length data / 50)%nat) by (apply Nat.div_le_lower_bound; lia). rewrite (proj2 (Nat.ltb_ge (length l) 2)) by lia. exists l. split; [reflexivity|]. split; [exact LL|]. rewrite <- (LA ltac:(lia)). rewrite <- LL.
    clear. induction l as [|x [|y l] IH]; [reflexivity|reflexivity|]. cbn [last length] in *. rewrite IH. replace (S (S (length l)) - 1)%nat with (S (S (length l) - 1)) by lia. reflexivity.
Qed.
(** an integer number of bins without limits: TypeError, unless the largest value is 0 *)
Theorem C75_integer_bins : forall data n, data <> [] -> n <> 0%Z -> feqb (fmaxl data) fzero = false -> plot_hist_edges data (XNum n) None = Raise TypeError.
Proof.
  intros data n ND N0 F. unfold plot_hist_edges. cbn [np_any]. rewrite (proj2 (Z.eqb_neq _ _) N0). cbn [negb]. assert (NE : forall f, np_extreme f data = Ok (f data)) by (intros f; destruct data; [contradiction|reflexivity]). rewrite !NE. cbn [rbind]. rewrite F. reflexivity.
Qed.
(** with limits: the edges end at the upper limit, unless the largest value is 0: then they end at 0 *)
Theorem C75_limits : forall data n lo hi, data <> [] -> (1 <= n)%Z -> exists edges, plot_hist_edges data (XNum n) (Some (lo, hi)) = Ok edges /\ length edges = Z.to_nat (n + 1) /\
  nth (Z.to_nat n) edges fzero = if feqb (fmaxl data) fzero then fmaxl data else hi.
Proof.
  intros data n lo hi ND N0. unfold plot_hist_edges. cbn [np_any]. rewrite (proj2 (Z.eqb_neq _ _)) by lia. cbn [negb]. assert (NE : forall f, np_extreme f data = Ok (f data)) by (intros f; destruct data; [contradiction|reflexivity]). rewrite !NE. cbn [rbind fst snd].
  set (b := if feqb (fmaxl data) fzero then fmaxl data else hi). assert (EB : (if negb (feqb (fmaxl data) fzero) then Ok hi else Ok (fmaxl data)) = Ok b) by (unfold b; destruct (feqb _ _); reflexivity). rewrite EB. cbn [rbind].
  destruct (linspace_ok lo b (n + 1) ltac:(lia)) as (l & EL). rewrite EL. cbn [rbind]. destruct (linspace_len _ _ _ _ EL) as (LL & LA). rewrite (proj2 (Nat.ltb_ge (length l) 2)) by lia. exists l. split; [reflexivity|]. split; [exact LL|].
  rewrite <- (LA ltac:(lia)). f_equal. lia.
Qed.
(** a list of at least two edges, not all 0, is used as it is (with or without limits) *)
Theorem C75_edges : forall data l lim v, In v l -> feqb v fzero = false -> (2 <= length l)%nat -> plot_hist_edges data (XEdges l) lim = Ok l.
Proof.
  intros data l lim v V F L. unfold plot_hist_edges. assert (A : np_any (XEdges l) = true). { cbn [np_any]. apply existsb_exists. exists v. split; [exact V|]. rewrite F. reflexivity. }
  rewrite A. cbn [rbind]. rewrite (proj2 (Nat.ltb_ge (length l) 2)) by lia. reflexivity.
Qed.
(** no records: ValueError in every form except with edges given *)
Theorem C75_no_records : forall xb lim, (no_binning xb /\ lim = None) \/ (exists n, xb = XNum n) -> plot_hist_edges [] xb lim = Raise ValueError.
Proof.
  intros xb lim [(NA & ->)|(n & ->)]; unfold plot_hist_edges.
  - apply no_binning_any in NA. rewrite NA. reflexivity.
  - destruct (np_any (XNum n)), lim; reflexivity.
Qed.
(** limits alone are not enough *)
Theorem C75_limits_only : forall data lim, plot_hist_edges data XFalse (Some lim) = Raise ValueError.
Proof. reflexivity. Qed.
Example C75_case : plot_hist_edges (map ofZ [1; 2; 3]%Z) (XNum 2) None = Raise TypeError /\ plot_hist_edges (map ofZ [1; 2; 3]%Z) XFalse None = Raise IndexError.
Proof. split; vm_compute; reflexivity. Qed.
(** the matrices of correlation_report are accepted: names as labels, at least one column *)
Theorem C67_report_matrices : forall fmt0 fmt2 t vmin vmax top idl, length (t_cells t) = length (t_index t) -> t_index t = t_columns t -> t_index t <> [] ->
  exists lay, plot_correlation_matrix fmt0 fmt2 (mkA2 (length (t_index t)) (length (t_columns t)) (t_cells t)) (map LStr (t_columns t)) (map LStr (t_index t)) vmin vmax top None true idl = Ok lay.
Proof.
  intros fmt0 fmt2 t vmin vmax top idl L E N. apply C67_accepts; cbn [a_nr a_nc]; rewrite ?map_length; try (left; reflexivity); try discriminate.
  - destruct (t_index t); [contradiction|simpl; lia].
  - intros x X. destruct (t_columns t) as [|a l]; [discriminate|]. cbn [map] in X. discriminate.
  - intros x X. destruct (t_index t) as [|a l]; [discriminate|]. cbn [map] in X. discriminate.
Qed.
Example C67_case : forall fmt0 fmt2 a b c d e f, let m := mkA2 2 3 [[a; b; c]; [d; e; f]] in
  rect m /\ exists lay, plot_correlation_matrix fmt0 fmt2 m [LStr "x"; LStr "y"; LStr "z"] [LStr "u"; LStr "v"] (-1) 1 20 None true true = Ok lay /\
    xticks lay = [(1, "z"); (3, "y"); (5, "x")]%nat%string /\ drawn lay = mkA2 2 3 [[c; b; a]; [f; e; d]].
Proof. intros. split; [split; [reflexivity|]; intros r [<-|[<-|[]]]; reflexivity|]. eexists. cbn. repeat split. Qed.

(** the number in a cell is written in white on the colours at the ends of the scale and on undefined cells, in black otherwise *)
Theorem C67_text_colour : forall vmin vmax c, white vmin vmax c = true <->
  c = NaN \/ c = MInf \/ c = PInf \/ exists x, c = Fin x /\ (x < 0.7 * vmin \/ 0.7 * vmax <= x).
Proof.
  intros vmin vmax c. unfold white, nle. rewrite !orb_true_iff. destruct c as [|x| |]; cbn [nlt neqb isnan].
  - split; [intros _; tauto|tauto].
  - destruct (Rlt_dec x (0.7 * vmin)) as [A|A], (Rlt_dec (0.7 * vmax) x) as [B|B], (Req_EM_T (0.7 * vmax) x) as [C|C]; (split; [intros H; right; right; right; exists x; split; [reflexivity|]; try (left; lra); try (right; lra); exfalso; intuition discriminate|]);
      intros [H|[H|[H|(y & E & H)]]]; try discriminate; injection E as <-; try tauto; exfalso; lra.
  - split; [intros _; tauto|tauto].
  - split; [intros _; tauto|tauto].
Qed.
Print Assumptions C67_text_colour.
