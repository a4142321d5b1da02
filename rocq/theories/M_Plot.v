(** * Model of the figures of rockphypy/QI.py: the numbers that are drawn.
    A figure is the list of what was drawn on it, in order. Line styles, labels, axis limits, sizes and colour bars are
    not modelled. *)
From Verif Require Import Fl M_Utils M_EM M_GM M_Fluid M_Emp M_QI.
Open Scope fl_scope.

(** Something drawn by matplotlib: [ax.plot(x, y)], [plt.scatter(x, y, c=c)], [plt.pcolormesh(x, y, z, cmap=name)] and
    [plt.contour(x, y, z)], where row [r] of [z] belongs to [y[r]]. *)
Inductive artist :=
| Curve (xs ys : list fl)
| Points (xs ys colours : list fl)
| Shade (xs ys : list fl) (z : list (list fl)) (cmap : string)
| Contour (xs ys : list fl) (z : list (list fl)).

(** matplotlib refuses a line whose coordinates have different lengths. *)
Definition mpl_plot (xs ys : list fl) : outcome artist :=
  if Nat.eqb (length xs) (length ys) then Ret (Curve xs ys) else Raise ValueError.
(** It refuses marks whose coordinates have different lengths. Colours of another length are an error or an RGB triple;
    the model gives no answer there. *)
Definition mpl_scatter (xs ys colours : list fl) : outcome artist :=
  if Nat.eqb (length xs) (length ys) then
    if Nat.eqb (length xs) (length colours) then Ret (Points xs ys colours) else Unknown
  else Raise ValueError.

(** QI.py 29-46, [QI.__init__]: the object's data. [kwargs.get] gives None for a missing keyword. *)
Record QI_obj := { q_Vp : list fl; q_phi : list fl; q_Vsh : option (list fl); q_Vs : option (list fl);
  q_den : option (list fl); q_eff_stress : option (list fl); q_TVD : option (list fl) }.
Definition kwargs := list (string * list fl).
Fixpoint kw_get (k : string) (kw : kwargs) : option (list fl) :=
  match kw with [] => None | (k', v) :: kw' => if String.eqb k k' then Some v else kw_get k kw' end.
Definition QI_init (Vp phi : list fl) (kw : kwargs) : QI_obj :=
  {| q_Vp := Vp; q_phi := phi; q_Vsh := kw_get "Vsh" kw; q_Vs := kw_get "Vs" kw; q_den := kw_get "den" kw;
     q_eff_stress := kw_get "eff_stress" kw; q_TVD := kw_get "TVD" kw |}.

(** QI.py 217-249, [QI.screening_plot]. [1-None] raises TypeError. *)
Definition QI_screening_plot (self : QI_obj) (phi vp1 vp2 vp3 : list fl) : outcome (list artist) :=
  call! l3 := mpl_plot phi vp3 in
  call! l1 := mpl_plot phi vp1 in
  call! l2 := mpl_plot phi vp2 in
  match q_Vsh self with
  | None => Raise TypeError
  | Some Vsh =>
      call! pts := mpl_scatter (q_phi self) (q_Vp self) (map (fun v => #1 - v) Vsh) in
      Ret [l3; l1; l2; pts]
  end.

(** QI.py 252-262, [QI.normalize], on a two-dimensional array given by its rows. *)
Definition QI_normalize2 (density : list (list fl)) : outcome (list (list fl)) :=
  call! den_max := np_max (concat density) in
  Ret (map (map (fun d => #1 - (den_max - d) /n den_max)) density).
(** [density[density<0.0001]=0]. *)
Definition QI_cut (d : fl) : outcome fl :=
  match fltb d #(1/10000) with Some true => Ret #0 | Some false => Ret d | None => Unknown end.
(** [a.T] of a rectangular array with [n] columns. *)
Definition np_T (n : nat) (a : list (list fl)) : list (list fl) :=
  map (fun j => map (fun r => nth j r Und) a) (seq 0 n).

(** QI.py 264-323, [QI.kde_plot]. [kde2d] (package kde_diffusion, not modelled) gives a density with one row per
    abscissa, and the two grid axes; it is assumed rectangular, with as many columns as the second axis. The colour
    map used is the module's [cmap_kde], whatever [cmap] is. *)
Definition QI_kde_plot (kde2d : list fl -> list fl -> Z -> outcome (list (list fl) * list fl * list fl)) (self : QI_obj)
  (phi v1 v2 v3 : list fl) (cmap vels : string) (n : Z) : outcome (list artist) :=
  call! l3 := mpl_plot phi v3 in
  call! l1 := mpl_plot phi v1 in
  call! l2 := mpl_plot phi v2 in
  let shade vel :=
    call! (density, gx, gy) := kde2d (q_phi self) vel n in
    call! density := QI_normalize2 density in
    call! density := oseq (oseq QI_cut) density in
    let z := np_T (length gy) density in
    Ret [l3; l1; l2; Shade gx gy z "cmap_kde"; Contour gx gy z] in
  if String.eqb vels "Vp" then shade (q_Vp self)
  else if String.eqb vels "Vs" then match q_Vs self with Some vs => shade vs | None => Unknown end
  else Ret [l3; l1; l2].

(** QI.py 378-448, [QI.cst_plot]. [m] is the kind of the numbers in [phib_p]: a list of Python floats or an array. *)
Definition QI_cst_plot (m : mode) (Dqz Kqz Gqz Dsh Ksh Gsh Dc Kc Gc Db Kb phib : fl) (phib_p : list fl) (phi_c sigma vsh Cn : fl)
  (scheme : Z) (f : fl) : outcome (list artist) :=
  call! (K0, G0, D0) := QI_mineral Dqz Kqz Gqz Dsh Ksh Gsh vsh in
  call! (phi, rows) := QI_screening Dqz Kqz Gqz Dsh Ksh Gsh Dc Kc Gc Db Kb phib phi_c sigma vsh scheme f Cn in
  call! l3 := mpl_plot phi (map (fun '(vp1, vp2, vp3, vs1, vs2, vs3) => vp3) rows) in
  call! l1 := mpl_plot phi (map (fun '(vp1, vp2, vp3, vs1, vs2, vs3) => vp1) rows) in
  call! ls := oseq (fun i =>
      call! vs := oseq (fun p => QI_cst_vels m i K0 D0 G0 p phi_c Cn Kc Gc Db Kb scheme vsh Dsh Dqz Dc) phi in
      mpl_plot phi (map fst vs)) phib_p in
  Ret (l3 :: l1 :: ls).

(** QI.py 576-640, [QI.cement_diag_plot]. *)
Definition QI_cement_diag_plot (m : mode) (self : QI_obj) (vcem : list fl) (Dqz Kqz Gqz Dsh Ksh Gsh Dc Kc Gc Db Kb phib : fl) (phib_p : list fl)
  (phi_c sigma vsh Cn : fl) (scheme : Z) (f : fl) : outcome (list artist) :=
  call! fig := QI_cst_plot m Dqz Kqz Gqz Dsh Ksh Gsh Dc Kc Gc Db Kb phib phib_p phi_c sigma vsh Cn scheme f in
  call! pts := mpl_scatter (q_phi self) (q_Vp self) vcem in
  Ret (fig ++ [pts]).

(** QI.py 563-574: the loop over [self.Vp] of [QI.estimate_cem]; row [i] of the data frame belongs to porosity [i]. A
    cell without a velocity keeps NaN; a velocity without a row raises IndexError. *)
Fixpoint QI_fill (seeds : list fl) (seeds_list : bool) (rows : list (list fl)) (Vp : list fl) : outcome (list fl) :=
  match Vp, rows with
  | [], _ => Ret (map (fun _ => NaN) rows)
  | val :: Vp', r :: rows' => call! c := QI_cem_sample seeds seeds_list r val in call! cs := QI_fill seeds seeds_list rows' Vp' in Ret (c :: cs)
  | _ :: _, [] => Raise IndexError
  end.
(** QI.py 505-575, [QI.estimate_cem], on the object. Without seeds the data frame has no rows. *)
Definition QI_obj_estimate_cem (self : QI_obj) (vcem_seeds : list fl) (seeds_list : bool)
  (Kqz Gqz Ksh Gsh phi_c Cn Kc Gc Db Kb : fl) (scheme : Z) (vsh Dsh Dqz Dc : fl) : outcome (list fl) :=
  call! rows := oseq (fun p =>
      call! vs := oseq (fun i => QI_cal_v_const Dqz Kqz Gqz Dsh Ksh Gsh Dc Kc Gc Db Kb (phi_c - i) phi_c vsh p scheme) vcem_seeds in
      Ret (map fst vs)) (q_phi self) in
  QI_fill vcem_seeds seeds_list (match vcem_seeds with [] => [] | _ => rows end) (q_Vp self).

(** QI.py 643-699, [QI.plot_rpt]: [rock] lists (Kdry, Gdry, phi) at each porosity of the arrays, [sw] the saturations.
    [plt.plot(IP.T, PS.T)] draws one line per porosity; the last line is that of the last saturation. [IP[:,-1]] of an
    array without columns raises IndexError. *)
Definition QI_plot_rpt (rock : list (fl * fl * fl)) (K0 D0 Kb Db Khc Dhc : fl) (sw : list fl) : outcome (list artist) :=
  call! cols := oseq (fun val => oseq (fun '(Kdry, Gdry, phi) => QI_rpt_point Kdry Gdry K0 D0 Kb Db Khc Dhc phi val) rock) sw in
  let IP := map (map fst) cols in
  let PS := map (map snd) cols in
  match cols with
  | [] => Raise IndexError
  | _ => Ret (map (fun i => Curve (map (fun c => nth i c Und) IP) (map (fun c => nth i c Und) PS)) (seq 0 (length rock))
              ++ [Curve (last IP []) (last PS [])])
  end.
