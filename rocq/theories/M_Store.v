(** * M_Store: arrays as mutable objects.

    M_Array.v runs the lines of a function on the contents of its array arguments. Here an array is an object in a store, a
    name holds a number or a reference, [x = y] makes a second reference to the same array, an operation on arrays makes a new
    one, and [x[mask] = e] changes an array in place. A call leaves behind the store as it is when the call returns or raises.
    A session is a list of steps of the caller: calls, new arrays, and assignments to elements.

    Simplifications: arrays have one dimension and hold floats (an array of integers truncates what is stored in it); an
    expression like [f(y[mask])] on the right of [x[mask] =] is evaluated on all of [y] and the masked elements are used; no
    views (none of the functions modelled here returns a slice of an argument); arrays that nothing refers to stay in the
    store. *)
From Verif Require Import Fl M_EM M_GM M_Emp M_Array M_ArrayFns.
Open Scope fl_scope.

Definition store := list (list fl).
(** What a name holds. *)
Inductive slot := RNum (x : fl) | RArr (l : nat).
Definition names := list slot.
Definition look (h : store) (v : slot) : val := match v with RNum x => VS x | RArr l => VA (nth l h []) end.
(** A result of an operation: an array is a new object. *)
Definition fresh (h : store) (v : val) : store * slot :=
  match v with VS x => (h, RNum x) | VA l => (h ++ [l], RArr (length h)) end.
Fixpoint update {A} (l : list A) (n : nat) (x : A) : list A :=
  match l, n with [], _ => [] | _ :: l, O => x :: l | y :: l, S n => y :: update l n x end.

(** The outcome of a piece of code, with the store it leaves behind. *)
Definition after (A : Type) : Type := (store * outcome A)%type.
Definition done {A} (h : store) (a : A) : after A := (h, Ret a).
Definition next {A B} (r : after A) (k : store -> A -> after B) : after B :=
  match r with (h, Ret a) => k h a | (h, Raise e) => (h, Raise e) | (h, Unknown) => (h, Unknown) end.
Definition make (h : store) (o : outcome val) : after slot :=
  match o with Ret v => let '(h, r) := fresh h v in (h, Ret r) | Raise e => (h, Raise e) | Unknown => (h, Unknown) end.

(** The masks used in the library, and what is stored. *)
Inductive test := TCmp (c : cmp) (e1 e2 : expr) | TNan (e : expr).
Inductive rhs := SExpr (e : expr) | SNan.
Inductive code :=
| CRet (es : list expr)                             (* return e1, e2, ... *)
| CLet (e : expr) (p : code)                        (* x = e *)
| CIf (c : cmp) (e1 e2 : expr) (p q : code)         (* if e1 < e2: p  else: q *)
| CEmpty (x : nat) (p : code)                       (* y = np.empty(x.size) *)
| CSum (e : expr) (p : code)                        (* y = np.sum(e) *)
| CSet (x : nat) (t : test) (s : rhs) (p : code)    (* x[t] = s *)
| CCall (f : code) (args : list nat) (p : code).    (* y1, y2, ... = f(x1, x2, ...) *)

(** A mask is an array of zeros and ones; a comparison the model knows nothing about gives [Und]. *)
Definition bit (b : option bool) : fl := match b with Some true => #1 | Some false => #0 | None => Und end.
Definition nan_bit (x : fl) : fl := match x with NaN => #1 | Fin _ => #0 | Inf => #0 | _ => Und end.
Definition mask2 (c : cmp) (v w : val) : outcome (list fl) :=
  let f x y := bit (semc c x y) in
  match v, w with
  | VS _, VS _ => Unknown
  | VS x, VA b => Ret (map (f x) b)
  | VA a, VS y => Ret (map (fun x => f x y) a)
  | VA a, VA b => broadcast f a b
  end.
(** [old[mask] = new]. *)
Fixpoint assign (old mask new : list fl) : outcome (list fl) :=
  match old, mask, new with
  | [], [], [] => Ret []
  | x :: old, b :: mask, y :: new =>
      call! r := assign old mask new in
      match b with Fin c => Ret ((if Req_EM_T c 0 then x else y) :: r) | _ => Unknown end
  | _, _, _ => Raise IndexError
  end.

Section Run.
Variable m : mode.
Fixpoint cev (h : store) (env : names) (e : expr) : after slot :=
  match e with
  | EVar n => done h (nth n env (RNum Und))
  | ELit r => done h (RNum (Fin r))
  | EOp1 o e => next (cev h env e) (fun h v => make h (app1 o (look h v)))
  | EOp2 o e1 e2 =>
      next (cev h env e1) (fun h v => next (cev h env e2) (fun h w => make h (app2 m o (look h v) (look h w))))
  end.
Fixpoint cevs (h : store) (env : names) (es : list expr) : after names :=
  match es with
  | [] => done h []
  | e :: es => next (cev h env e) (fun h v => next (cevs h env es) (fun h vs => done h (v :: vs)))
  end.
Definition ctest (h : store) (env : names) (t : test) : after (list fl) :=
  match t with
  | TCmp c e1 e2 =>
      next (cev h env e1) (fun h v => next (cev h env e2) (fun h w => (h, mask2 c (look h v) (look h w))))
  | TNan e =>
      next (cev h env e) (fun h v => (h, match look h v with VA l => Ret (map nan_bit l) | VS _ => Unknown end))
  end.
(** The elements to store, for an array of n elements. *)
Definition crhs (h : store) (env : names) (n : nat) (s : rhs) : after (list fl) :=
  match s with
  | SExpr e => next (cev h env e) (fun h v => done h match look h v with VS x => repeat x n | VA l => l end)
  | SNan => done h (repeat NaN n)
  end.
Fixpoint crun (p : code) (h : store) (env : names) : after names :=
  match p with
  | CRet es => cevs h env es
  | CLet e p => next (cev h env e) (fun h v => crun p h (env ++ [v]))
  | CIf c e1 e2 p q =>
      next (cev h env e1) (fun h v => next (cev h env e2) (fun h w =>
        match truth c (look h v) (look h w) with
        | Ret true => crun p h env
        | Ret false => crun q h env
        | Raise e => (h, Raise e)
        | Unknown => (h, Unknown)
        end))
  | CEmpty x p =>
      match look h (nth x env (RNum Und)) with
      | VA l => next (make h (Ret (VA (repeat Und (length l))))) (fun h v => crun p h (env ++ [v]))
      | VS _ => (h, Unknown)
      end
  | CSum e p =>
      next (cev h env e) (fun h v =>
        match look h v with
        | VA l => crun p h (env ++ [RNum (fsum l)])
        | VS x => crun p h (env ++ [RNum x])
        end)
  | CSet x t s p =>
      match nth x env (RNum Und) with
      | RNum _ => (h, Raise TypeError)
      | RArr l =>
          next (crhs h env (length (nth l h [])) s) (fun h new => next (ctest h env t) (fun h mask =>
            match assign (nth l h []) mask new with
            | Ret a => crun p (update h l a) env
            | Raise e => (h, Raise e)
            | Unknown => (h, Unknown)
            end))
      end
  | CCall f args p =>
      next (crun f h (map (fun k => nth k env (RNum Und)) args)) (fun h vs => crun p h (env ++ vs))
  end.

(** ** Sessions: what the caller does between and with the calls. An exception is caught and the session goes on. *)
Inductive action :=
| ANum (x : fl)                              (* y = 0.3 *)
| AArr (l : list fl)                         (* y = np.array([...]) *)
| AName (x : nat)                            (* y = x *)
| AEdit (x i : nat) (v : fl)                 (* x[i] = 0.3 *)
| ACall (f : code) (args : list nat).        (* y1, ... = f(x1, ...) *)
Definition act (s : store * names) (a : action) : store * names :=
  let '(h, env) := s in
  match a with
  | ANum x => (h, env ++ [RNum x])
  | AArr l => (h ++ [l], env ++ [RArr (length h)])
  | AName x => (h, env ++ [nth x env (RNum Und)])
  | AEdit x i v => match nth x env (RNum Und) with RArr l => (update h l (update (nth l h []) i v), env) | RNum _ => s end
  | ACall f args =>
      match crun f h (map (fun k => nth k env (RNum Und)) args) with
      | (h, Ret vs) => (h, env ++ vs)
      | (h, _) => (h, env)
      end
  end.
Definition session (s : store * names) (acts : list action) : store * names := fold_left act acts s.
End Run.

(** ** The functions. *)
(** Those of M_ArrayFns.v assign nothing in place. *)
Fixpoint lines (p : prog) : code :=
  match p with PRet es => CRet es | PLet e p => CLet e (lines p) | PIf c e1 e2 p q => CIf c e1 e2 (lines p) (lines q) end.

(** The lines of EM.py 502-519, read off their model. *)
Definition arr_EM_PQ_spheroid : prog :=
  ltac:(let t := eval cbv beta iota zeta delta [EM_PQ_spheroid] in
                   (EM_PQ_spheroid (fdiv NumPy) (tag 0) (tag 1) (tag 2) (tag 3) (tag 4) (tag 5)) in
        let p := rprog t 6%nat in exact p).
(** EM.py 498 and 500, right-hand sides: variable 8 is [alpha_]. *)
Definition arr_theta_oblate : expr :=
  ltac:(let t := eval cbv beta iota zeta delta [EM_theta_oblate] in (EM_theta_oblate NumPy (tag 8)) in let e := rexpr t in exact e).
Definition arr_theta_prolate : expr :=
  ltac:(let t := eval cbv beta iota zeta delta [EM_theta_prolate] in (EM_theta_prolate NumPy (tag 8)) in let e := rexpr t in exact e).

(** EM.py 470-524, [EM.PQ_vectorize]. Arguments 0-4: Km, Gm, Ki, Gi, alpha. *)
Definition code_PQ_vectorize : code :=
  CEmpty 2                                                                    (* 5: P *)
  (CEmpty 2                                                                   (* 6: Q *)
  (CEmpty 2                                                                   (* 7: theta *)
  (CLet (EVar 4)                                                              (* 8: alpha_ = alpha *)
  (CSet 8 (TCmp CEq (EVar 4) (ELit 1)) (SExpr (ELit 0.999))                   (* alpha_[alpha==1]=0.999 *)
  (CSet 7 (TCmp CLt (EVar 8) (ELit 1)) (SExpr arr_theta_oblate)
  (CSet 7 (TCmp CLt (ELit 1) (EVar 8)) (SExpr arr_theta_prolate)
  (CCall (lines arr_EM_PQ_spheroid) [0; 1; 2; 3; 8; 7]%nat                    (* 9: P, 10: Q *)
  (CSet 9 (TCmp CEq (EVar 4) (ELit 1))
     (SExpr (EOp2 ODivN (EOp2 OAdd (EVar 0) (EOp2 ODivN (EOp2 OMul (ELit 4) (EVar 1)) (ELit 3)))
                        (EOp2 OAdd (EVar 2) (EOp2 ODivN (EOp2 OMul (ELit 4) (EVar 1)) (ELit 3)))))
  (CLet (EOp2 ODivN (EOp2 OMul (EOp2 ODivN (EVar 1) (ELit 6)) (EOp2 OAdd (EOp2 OMul (ELit 9) (EVar 0)) (EOp2 OMul (ELit 8) (EVar 1))))
                    (EOp2 OAdd (EVar 0) (EOp2 OMul (ELit 2) (EVar 1))))       (* 11: kesai *)
  (CSet 10 (TCmp CEq (EVar 4) (ELit 1))
     (SExpr (EOp2 ODivN (EOp2 OAdd (EVar 1) (EVar 11)) (EOp2 OAdd (EVar 3) (EVar 11))))
  (CRet [EVar 9; EVar 10]))))))))))).

(** EM.py 527-553, [EM.Berryman_func]. Arguments 0-5: K_sc, G_sc, K, G, X, Alpha. *)
Definition code_Berryman_func : code :=
  CCall code_PQ_vectorize [0; 1; 2; 3; 5]%nat                                 (* 6: P, 7: Q *)
  (CSum (EOp2 OMul (EOp2 OMul (EVar 4) (EOp2 OSub (EVar 2) (EVar 0))) (EVar 6))
  (CSum (EOp2 OMul (EOp2 OMul (EVar 4) (EOp2 OSub (EVar 3) (EVar 1))) (EVar 7))
  (CRet [EVar 8; EVar 9]))).

(** GM.py 615-641, [GM.diluting]. Arguments 0-3: k, sigma0, sigma, m. *)
Definition code_diluting : code :=
  CLet (EOp2 OMul (EVar 0) (EOp2 OPowN (EOp2 OSub (ELit 1) (EOp2 ODivN (EVar 2) (EVar 1))) (EVar 3)))
  (CSet 4 (TNan (EVar 4)) (SExpr (ELit 0))
  (CRet [EVar 4])).

(** Emp.py 153-169, [Empirical.ramm_porosity_segment]. Argument 0: Z. *)
Definition code_ramm_segment : code :=
  CLet (EOp2 OMul (ELit 45) (EOp1 OExp (EOp2 OMul (ELit (- (25/100000))) (EVar 0))))               (* 1: phi1 *)
  (CLet (EOp2 OSub (ELit 25) (EOp2 OMul (ELit (13/1000)) (EOp2 OSub (EVar 0) (ELit 2500))))        (* 2: phi2 *)
  (CSet 1 (TCmp CLt (EVar 2) (EVar 1)) (SExpr (EVar 2))
  (CRet [EVar 1]))).

(** QI.py 325-375, [QI.cst_vels], for the two cement schemes, after the density of the matrix (line 371, which does not depend
    on phi and is argument 8 here). Arguments 0-10: phi_b, K0, G0, Kc, Gc, phi, phi_c, Cn, D, Kb, Db. *)
Definition code_cst_vels (constantcement : prog) : code :=
  CCall (lines constantcement) [0; 1; 2; 3; 4; 5; 6; 7]%nat                   (* 11: Kdry, 12: Gdry *)
  (CCall (lines arr_Fluid_vels) [11; 12; 1; 8; 9; 10; 5]%nat                  (* 13: vp, 14: vs, 15 *)
  (CSet 13 (TCmp CLt (EVar 0) (EVar 5)) SNan
  (CSet 14 (TCmp CLt (EVar 0) (EVar 5)) SNan
  (CRet [EVar 13; EVar 14])))).

(** The functions with the number of their arguments: those of M_ArrayFns.v, and those that assign to arrays of their own. *)
Definition programs : list (nat * prog) :=
  [(3, arr_utils_V); (2, arr_utils_poi); (2, arr_utils_lame); (3, arr_utils_M_from_V); (2, arr_utils_crack_por);
   (4, arr_EM_cripor); (5, arr_EM_HS_upper); (5, arr_EM_HS_lower); (6, arr_EM_hudson_rand); (3, arr_EM_Dilute_crack);
   (3, arr_EM_OConnell_Budiansky); (5, arr_EM_SC_dilute_stress); (5, arr_EM_SC_dilute_strain); (7, arr_EM_MT_average);
   (7, arr_Anis_Thomsen); (9, arr_Anis_Thomsen_Tsvankin); (4, arr_Fluid_Brie); (8, arr_Fluid_Biot_HF);
   (8, arr_Fluid_Geertsma_Smit_HF); (7, arr_Fluid_Geertsma_Smit_LF); (5, arr_Fluid_Gassmann); (5, arr_Fluid_Gassmann_sub);
   (7, arr_Fluid_vels); (9, arr_Fluid_Gassmann_vels); (5, arr_Fluid_Gassmann_approx); (9, arr_Fluid_Mavko_Jizba);
   (3, arr_GM_ThomasStieber); (5, arr_GM_silty_shale); (6, arr_GM_shaly_sand); (7, arr_GM_contactcement_1);
   (7, arr_GM_contactcement_2); (6, arr_GM_hertzmindlin); (7, arr_GM_softsand); (6, arr_GM_Walton); (7, arr_GM_stiffsand);
   (8, arr_GM_constantcement_1); (8, arr_GM_constantcement_2); (8, arr_GM_MUHS_1); (8, arr_GM_MUHS_2);
   (2, arr_Perm_Kozeny_Carman); (4, arr_Perm_Kozeny_Carman_Percolation); (2, arr_Perm_Owolabi); (2, arr_Perm_Perm_logs);
   (5, arr_Perm_Panda_Lake); (2, arr_Perm_Panda_Lake_cem); (2, arr_Perm_Revil); (3, arr_Perm_Fredrich); (3, arr_Perm_Bloch);
   (4, arr_Perm_Bernabe); (3, arr_Emp_krief); (2, arr_Emp_esti_VS); (2, arr_Emp_han); (1, arr_Emp_ehrenberg);
   (1, arr_Emp_ramm_porosity_true); (1, arr_Emp_ramm_porosity_false); (1, arr_Emp_StPeter_1); (1, arr_Emp_StPeter_2);
   (1, arr_Emp_Scherbaum); (1, arr_Emp_Sclater); (1, arr_Emp_Storvoll); (1, arr_Emp_Hillis); (1, arr_Emp_hjelstuen);
   (1, arr_Emp_Cp); (2, arr_BW_dz_dp); (3, arr_BW_pseudo_p_t); (3, arr_BW_rho_K_co2); (3, arr_BW_rho_K_gas);
   (3, arr_BW_rho_K_oil); (4, arr_BW_rho_K_go_sat); (2, arr_BW_v_water); (2, arr_BW_rho_K_water); (3, arr_BW_v_brine);
   (3, arr_BW_rho_K_brine); (4, arr_BW_co2_brine_true); (4, arr_BW_co2_brine_false); (7, arr_AVO_zoeppritz);
   (6, arr_AVO_AVO_abe); (17, arr_AVO_AVO_ortho); (12, arr_GM_pcm_stiff_1); (12, arr_GM_pcm_stiff_2);
   (12, arr_GM_pcm_soft_1); (12, arr_GM_pcm_soft_2); (13, arr_GM_vpcm_1); (13, arr_GM_vpcm_2); (6, arr_QI_matrix_modulus)]%nat.
Definition library : list (nat * code) :=
  map (fun q => (fst q, lines (snd q))) programs ++
  [(4, code_diluting); (1, code_ramm_segment); (11, code_cst_vels arr_GM_constantcement_1);
   (11, code_cst_vels arr_GM_constantcement_2)]%nat.
