(** * M_Grid: calls with arrays of two dimensions, and the functions that add an axis.

    The programs of M_Array.v run on numbers, one-dimensional and two-dimensional arrays. A dimension of size 1 is stretched,
    dimensions that differ otherwise raise ValueError, and a one-dimensional array counts as one row.

    [AVO.Aki_Richards], [AVO.EI_ref] and [EM.Swiss_cheese] turn their first arguments into columns, so that a call with arrays
    returns a table; [AVO.AVO_HTI] builds its table with [np.meshgrid].

    Simplifications: at most two dimensions ([newaxis] of a two-dimensional array gives no claim); no tests. *)
From Verif Require Import Fl M_Utils M_EM M_Anis M_AVO M_Array M_ArrayFns.
Open Scope fl_scope.

(** A number, or an array with [nd] axes, [r] rows ([r = 1] for one axis) and [c] columns; [f i j] is the element. *)
Inductive gval := GS (x : fl) | GA (nd r c : nat) (f : nat -> nat -> fl).

(** Element (i, j) after stretching. *)
Definition at_ (i j : nat) (v : gval) : fl :=
  match v with
  | GS x => x
  | GA _ r c f => f (if Nat.eqb r 1 then 0%nat else i) (if Nat.eqb c 1 then 0%nat else j)
  end.
Definition bdim (a b : nat) : option nat :=
  if Nat.eqb a b then Some a else if Nat.eqb a 1 then Some b else if Nat.eqb b 1 then Some a else None.
Definition gnum (x : fl) : outcome gval := match x with Exc e => Raise e | _ => Ret (GS x) end.

Section Run.
Variable m : mode.
Definition gapp1 (o : op1) (v : gval) : outcome gval :=
  match v with GS x => gnum (sem1 o x) | GA d r c f => Ret (GA d r c (fun i j => sem1 o (f i j))) end.
Definition gapp2 (o : op2) (v w : gval) : outcome gval :=
  match v, w with
  | GS x, GS y => gnum (sem2 m o x y)
  | GS x, GA d r c g => Ret (GA d r c (fun i j => sem2 NumPy o x (g i j)))
  | GA d r c f, GS y => Ret (GA d r c (fun i j => sem2 NumPy o (f i j) y))
  | GA d r c f, GA d' r' c' g =>
      match bdim r r', bdim c c' with
      | Some R, Some C => Ret (GA (Nat.max d d') R C (fun i j => sem2 NumPy o (at_ i j v) (at_ i j w)))
      | _, _ => Raise ValueError
      end
  end.
Fixpoint ev_grid (env : list gval) (e : expr) : outcome gval :=
  match e with
  | EVar n => Ret (nth n env (GS Und))
  | ELit r => Ret (GS (Fin r))
  | EOp1 o e => call! v := ev_grid env e in gapp1 o v
  | EOp2 o e1 e2 => call! v := ev_grid env e1 in call! w := ev_grid env e2 in gapp2 o v w
  end.
Fixpoint ev_grids (env : list gval) (es : list expr) : outcome (list gval) :=
  match es with
  | [] => Ret []
  | e :: es => call! v := ev_grid env e in call! vs := ev_grids env es in Ret (v :: vs)
  end.
Fixpoint run_grid (p : prog) (env : list gval) : outcome (list gval) :=
  match p with
  | PRet es => ev_grids env es
  | PLet e p => call! v := ev_grid env e in run_grid p (env ++ [v])
  | PIf _ _ _ _ _ => Unknown
  end.

(** [v[:, np.newaxis]]. A Python float cannot be indexed (TypeError), a NumPy number has no axis (IndexError). *)
Definition newaxis (v : gval) : outcome gval :=
  match v with
  | GS x => Raise (match m with PyFloat => TypeError | NumPy => IndexError end)
  | GA 1 _ n f => Ret (GA 2 n 1 (fun i _ => f 0%nat i))
  | GA _ _ _ _ => Unknown
  end.
Fixpoint newaxes (vs : list gval) : outcome (list gval) :=
  match vs with [] => Ret [] | v :: vs => call! v := newaxis v in call! vs := newaxes vs in Ret (v :: vs) end.
(** [if isinstance(v, np.ndarray): v = v[:, np.newaxis]; ...]: only the first is tested. *)
Definition columns (vs : list gval) : outcome (list gval) :=
  match vs with GA _ _ _ _ :: _ => newaxes vs | _ => Ret vs end.

(** AVO.py 98-154. *)
Definition arr_AVO_Aki_Richards : prog :=
  ltac:(let t := eval cbv beta iota zeta delta [AVO_Aki_Richards] in
          (AVO_Aki_Richards mtag (tag 0) (tag 1) (tag 2) (tag 3) (tag 4) (tag 5) (tag 6)) in let p := rprog t 7%nat in exact p).
Definition grid_Aki_Richards (theta vp1 vp2 vs1 vs2 den1 den2 : gval) : outcome (list gval) :=
  call! vs := columns [vp1; vp2; vs1; vs2; den1; den2] in
  run_grid arr_AVO_Aki_Richards (theta :: vs).

(** EM.py 557-579. *)
Definition arr_EM_Swiss_cheese : prog :=
  ltac:(let t := eval cbv beta iota zeta delta [EM_Swiss_cheese] in
          (EM_Swiss_cheese mtag (tag 0) (tag 1) (tag 2)) in let p := rprog t 3%nat in exact p).
Definition grid_Swiss_cheese (Ks Gs phi : gval) : outcome (list gval) :=
  call! vs := columns [Ks; Gs] in
  run_grid arr_EM_Swiss_cheese (vs ++ [phi]).

(** [np.mean] of a column or of a number. *)
Definition gmean (v : gval) : fl :=
  match v with
  | GS x => np_mean [x]
  | GA _ r c f => np_mean (flat_map (fun i => map (f i) (seq 0 c)) (seq 0 r))
  end.
(** AVO.py 276-349: the lines after the normalisation, with the ray parameter of the velocities before it. *)
Definition arr_AVO_EI_sample : prog :=
  ltac:(let t := eval cbv beta iota zeta delta [AVO_EI_sample] in
          (call (AVO_EI_sample mtag (tag 0) (tag 1) (tag 2) (tag 3) (tag 4) (tag 5) (tag 6) (tag 7) (tag 8))
             (fun r => match r with Build_EI_result a b c d e => Ret (a, b, c, d, e) end)) in let p := rprog t 9%nat in exact p).
Definition grid_EI_ref (Vp Vs rho theta SP : gval) (norm : bool) : outcome (list gval) :=
  call! vs := columns [Vp; Vs; rho] in
  match vs with
  | [Vp; Vs; rho] =>
      if norm then
        let mVp := gmean Vp in let mVs := gmean Vs in let mrho := gmean rho in
        call! nVp := gapp2 ODivN Vp (GS mVp) in
        call! nVs := gapp2 ODivN Vs (GS mVs) in
        call! nrho := gapp2 ODivN rho (GS mrho) in
        run_grid arr_AVO_EI_sample [GS (mVp * mrho); GS (mVs * mrho); Vp; Vs; nVp; nVs; nrho; theta; SP]
      else run_grid arr_AVO_EI_sample [GS #1; GS #1; Vp; Vs; Vp; Vs; rho; theta; SP]
  | _ => Unknown
  end.

(** AVO.py 34-38: [np.meshgrid] of the two angle arrays: one row per azimuth, one column per incidence angle. *)
Definition mesh_theta (theta azimuth : list fl) : gval := GA 2 (length azimuth) (length theta) (fun _ j => nth j theta Und).
Definition mesh_azimuth (theta azimuth : list fl) : gval := GA 2 (length azimuth) (length theta) (fun i _ => nth i azimuth Und).
(** AVO.py 10-95. The twelve stiffnesses are C11, C13, C33, C44, C55, C66 of the upper and of the lower medium. The conversion
    to radians comes before the mesh in the code and after it here: it acts on each element. *)
Definition stiff (C11 C13 C33 C44 C55 C66 : fl) : mat :=
  [[C11; Und; C13; Und; Und; Und]; []; [Und; Und; C33; Und; Und; Und]; [Und; Und; Und; C44; Und; Und];
   [Und; Und; Und; Und; C55; Und]; [Und; Und; Und; Und; Und; C66]].
Definition arr_AVO_HTI_elem : prog :=
  ltac:(let t := eval cbv beta iota zeta delta [AVO_HTI_elem stiff mget nth] in
          (AVO_HTI_elem (tag 0) (tag 1) (stiff (tag 2) (tag 3) (tag 4) (tag 5) (tag 6) (tag 7))
             (stiff (tag 8) (tag 9) (tag 10) (tag 11) (tag 12) (tag 13)) (tag 14) (tag 15)) in
        let p := rprog t 16%nat in exact p).
Definition stiffnesses (C : mat) : list gval :=
  [GS (mget C 0 0); GS (mget C 0 2); GS (mget C 2 2); GS (mget C 3 3); GS (mget C 4 4); GS (mget C 5 5)].
Definition grid_HTI (D1 D2 : fl) (C1 C2 : mat) (theta azimuth : list fl) : outcome (list gval) :=
  run_grid arr_AVO_HTI_elem
    (GS D1 :: GS D2 :: stiffnesses C1 ++ stiffnesses C2 ++ [mesh_theta theta azimuth; mesh_azimuth theta azimuth]).
End Run.
