(** Model of phik/report.py (what is drawn where, and which pairs get an outlier matrix), phik/config.py and phik/resources.py.
    Drawing itself (matplotlib) is not modelled: calls of plotting functions are assumed to succeed. *)
From Coq Require Import String Ascii ZArith List Bool Reals.
Import ListNotations.
From Verif Require Import F64 Base Cells BinModel HistModel RSum StatsModel BivModel Num PhikModel ArrayModel SparkModel RcontModel SimModel SigModel BetaModel OutModel HeapModel.
Open Scope list_scope.

(** * config.py:5-16 *)
Definition n_cores (os_name : string) (cpu_count : Z) : Z :=
  if String.eqb os_name "nt" then (if (64 <=? cpu_count)%Z then 60 else 1)%Z else cpu_count.

(** * resources.py:22-48: [registered] are the names found at import time, [exists_] the files there are now *)
Definition resource {P} (registered : list (string * P)) (exists_ : P -> bool) (name : string) : res P :=
  match assoc name registered with
  | Some p => if exists_ p then Ok p else Raise FileNotFoundError
  | None => Raise FileNotFoundError
  end.

(** * tick labels (report.py:140-147) *)
Inductive label := LNum (x : num) | LStr (s : string).
Section Plot.
(** '{0:.0f}'.format(x), '{0:.2f}'.format(x) *)
Variables (fmt0 fmt2 : num -> string).
Definition tick (top : Z) (lab : label) : string :=
  let s := match lab with LNum x => if isnan x then "NaN"%string else fmt0 x | LStr s => s end in
  if (top <? Z.of_nat (String.length s))%Z then (substring 0 17 s ++ "...")%string else s.

(** * plot_correlation_matrix (report.py:88-216) *)
(** a two-dimensional array *)
Record arr2 := mkA2 { a_nr : nat; a_nc : nat; a_rows : list (list num) }.
Definition at2 (a : arr2) (j i : nat) : num := nth i (nth j (a_rows a) []) NaN.
(** positions are in half cells: cell number i covers [2i, 2i+2] *)
Record layout := mkLay { xticks : list (nat * string); yticks : list (nat * string); drawn : arr2; notes : list (nat * nat * list string * bool) }.
Definition flip (a : arr2) : arr2 := mkA2 (a_nr a) (a_nc a) (map (@rev num) (a_rows a)).
Definition ticks (n : nat) (l : list string) : list (nat * string) :=
  if Nat.eqb (length l) (n + 1) then combine (map (fun k => 2 * k)%nat (seq 0 (length l))) l else combine (map (fun k => 2 * k + 1)%nat (seq 0 (length l))) l.
(** len(labels) == 1 and len(labels[0]) == 0: a number has no length *)
Definition single_label (l : list label) : res unit := match l with [LNum _] => Raise TypeError | _ => Ok tt end.
Definition note_text (x : num) : string := if isnan x then "NaN"%string else fmt2 x.
Definition white (vmin vmax : R) (c : num) : bool := nlt c (Fin (0.7 * vmin)) || nle (Fin (0.7 * vmax)) c || isnan c.
Definition plot_correlation_matrix (colors : arr2) (x_labels y_labels : list label) (vmin vmax : R) (top : Z) (numbers : option arr2)
    (print_both identity_layout : bool) : res layout :=
  if negb (Nat.eqb (a_nr colors) (length y_labels) || Nat.eqb (a_nr colors + 1) (length y_labels)) then Raise AssertionError
  else if negb (Nat.eqb (a_nc colors) (length x_labels) || Nat.eqb (a_nc colors + 1) (length x_labels)) then Raise AssertionError
  else
    let* nb := match numbers with
      | None => Ok (colors, false)
      | Some n => if negb (Nat.eqb (a_nr n) (length y_labels)) then Raise AssertionError
                  else if negb (Nat.eqb (a_nc n) (length x_labels)) then Raise AssertionError else Ok (n, print_both)
      end in
    let colors' := if identity_layout then flip colors else colors in
    let x_labels' := if identity_layout then rev x_labels else x_labels in
    let numbers' := if identity_layout then flip (fst nb) else fst nb in
    (* np.array([]) of an array without rows has only one dimension: pcolormesh cannot unpack its shape *)
    if identity_layout && Nat.eqb (a_nr colors) 0 then Raise ValueError
    else
      let* _ := single_label x_labels' in
      let* _ := single_label y_labels in
      let* notes := mapM (fun ij =>
          if Nat.ltb (snd ij) (a_nr colors') && Nat.ltb (fst ij) (a_nc colors') then
            Ok (ij, map (fun m => note_text (at2 m (snd ij) (fst ij))) (if snd nb then [numbers'; colors'] else [numbers']), white vmin vmax (at2 colors' (snd ij) (fst ij)))
          else Raise IndexError)
        (list_prod (seq 0 (a_nc numbers')) (seq 0 (a_nr numbers'))) in
      Ok (mkLay (ticks (a_nc colors') (map (tick top) x_labels')) (ticks (a_nr colors') (map (tick top) y_labels)) colors' notes).
End Plot.

(** * plot_hist_and_func (report.py:34-85): the bin edges; data and limits without NaN *)
Inductive xbins_arg := XFalse | XNum (n : Z) | XEdges (l : list f64).
Definition np_any (x : xbins_arg) : bool :=
  match x with XFalse => false | XNum n => negb (Z.eqb n 0) | XEdges l => existsb (fun v => negb (feqb v fzero)) l end.
Definition np_extreme (f : list f64 -> f64) (data : list f64) : res f64 := match data with [] => Raise ValueError | _ => Ok (f data) end.
Definition plot_hist_edges (data : list f64) (xbins : xbins_arg) (xlimit : option (f64 * f64)) : res (list f64) :=
  let* edges :=
    match np_any xbins, xlimit, xbins with
    | false, None, _ =>
        let* lo := np_extreme fminl data in
        let* hi := np_extreme fmaxl data in
        linspace lo hi (Z.of_nat (length data / 50 + 1))
    | _, _, XNum n =>
        let* lo := np_extreme fminl data in
        let lo := match xlimit with Some l => fst l | None => lo end in
        let* hi := np_extreme fmaxl data in
        let* hi := if negb (feqb hi fzero) then (match xlimit with Some l => Ok (snd l) | None => Raise TypeError end) else Ok hi in
        linspace lo hi (n + 1)
    (* plt.hist(data, bins=False) *)
    | _, _, XFalse => Raise ValueError
    | _, _, XEdges l => Ok l
    end in
  (* np.diff(xbins)[0] *)
  if Nat.ltb (length edges) 2 then Raise IndexError else Ok edges.

(** * correlation_report (report.py:219-357) *)
(** ':'.join(comb).replace(' ', '_') *)
Fixpoint underscores (s : string) : string :=
  match s with EmptyString => EmptyString | String a s' => String (if Ascii.eqb a " "%char then "_"%char else a) (underscores s') end.
Definition report_key (c : string * string) : string := underscores (colon_key (fst c) (snd c)).

Section Report.
Variable St : Type.
Variable E : env St.
(** report.py:311-346; the pair is data_binned[[c0, c1]].copy(); an undefined result (a float) has no attribute 'columns' *)
Fixpoint report_outliers (l : nat) (dict : list (string * list (f64 * f64))) (CI : string) (sthr cthr : R) (pm sm : ntable)
    (cs : list (string * string)) (acc : list (string * oresult)) : HM St (list (string * oresult)) :=
  match cs with
  | [] => hret St acc
  | c :: cs' =>
      if nlt (nabs (tval sm (fst c) (snd c))) (Fin sthr) || nlt (tval pm (fst c) (snd c)) (Fin cthr)
      then report_outliers l dict CI sthr cthr pm sm cs' acc
      else
        hbind St (hget St l) (fun f =>
        hbind St (hlift St (two_columns f c)) (fun f2 =>
        hbind St (hnew St f2) (fun l2 =>
        hbind St (outlier_reb_h St E l2 dict CI 1 true true true) (fun m =>
        match m with
        | ONaN => hraise St AttributeError
        | _ => report_outliers l dict CI sthr cthr pm sm cs' (dict_set (report_key c) m acc)
        end))))
  end.
(** report.py:264-357 [correlation_report]: the four results (the dictionary of file names is not modelled) *)
Definition correlation_report (l : nat) (ic : option (list string)) (bins : bins_arg) (q do_outliers : bool) (sthr cthr : R) (noise : bool)
    (lam : lambda) (simm : string) (nsim : Z) (sigm : string) (CI : string)
    : HM St (ntable * list num * ntable * list (string * oresult)) :=
  hbind St (prepare_h St E l ic bins q true) (fun bd =>
  hbind St (phik_reb_h St E (fst bd) noise true true true) (fun pm =>
  hbind St (global_reb_h St E (fst bd) noise true true true) (fun g =>
  hbind St (signif_reb_h St E (fst bd) lam simm nsim sigm true true true) (fun sm =>
  hbind St (hget St (fst bd)) (fun f =>
  hbind St (if do_outliers then report_outliers (fst bd) (snd bd) CI sthr cthr pm sm (pairs (keys f)) [] else hret St []) (fun outs =>
  hret St (pm, fst g, sm, outs))))))).
End Report.
