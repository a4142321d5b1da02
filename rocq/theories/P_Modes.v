(** * C93: Python floats and NumPy floats. *)
From Coq Require Import Lra.
From Verif Require Import Fl M_EM M_Fluid M_Array M_ArrayFns M_Store Spec16 Spec29 L_Array L_ArrayFns L_Modes L_ModesArr P_EM.
Open Scope fl_scope.

(** A call that returns with Python floats returns with NumPy floats too: the same numbers, but where the result is complex. *)
Theorem C93_same : forall p env ys,
  Forall no_exc env -> run PyFloat p env = Ret ys ->
  exists ys', run NumPy p env = Ret ys' /\ Forall2 same_or_complex ys ys'.
Proof.
  intros p env ys N E. apply (run_ref p env env ys); auto.
  clear - env. induction env as [|x l IH]; constructor; auto. apply ref_refl.
Qed.
Print Assumptions C93_same.

(** Without complex results the two calls are equal. *)
Theorem C93_equal : forall p env ys,
  Forall no_exc env -> run PyFloat p env = Ret ys -> ~ In Und ys -> run NumPy p env = Ret ys.
Proof.
  intros p env ys N E U. destruct (C93_same p env ys N E) as (ys' & E' & S). rewrite E'. f_equal. clear E E'.
  induction S as [|y y' ys ys' S F IH]; [reflexivity|]. cbn in U.
  destruct S as [->| ->]; [f_equal; apply IH; tauto|tauto].
Qed.
Print Assumptions C93_equal.

(** With arrays among the arguments: the numbers beside the arrays may be Python's or NumPy's. The results have the same shapes and
    the same elements. *)
Theorem C93_beside_arrays : forall p env vs,
  Forall is_value env -> run_arr PyFloat p env = Ret vs ->
  exists vs', run_arr NumPy p env = Ret vs' /\ Forall2 same_or_complex_val vs vs'.
Proof.
  intros p env vs N E. destruct (soc_run p env env vs) as (vs' & E' & S); [|exact E|].
  - clear E. induction N; constructor; auto. apply is_value_soc; auto.
  - exists vs'. split; [exact E'|]. clear E E'. induction S as [|v w vs vs' H S IH]; constructor; auto.
    destruct v as [x|a], w as [y|b]; cbn in H |- *; auto; [apply H|]. induction H as [|x y a b H T IHT]; constructor; auto. apply H.
Qed.
Print Assumptions C93_beside_arrays.

(** Without complex results they are equal. *)
Theorem C93_equal_beside_arrays : forall p env vs,
  Forall is_value env -> run_arr PyFloat p env = Ret vs -> ~ In (VS Und) vs -> (forall l, In (VA l) vs -> ~ In Und l) ->
  run_arr NumPy p env = Ret vs.
Proof.
  intros p env vs N E U V. destruct (C93_beside_arrays p env vs N E) as (vs' & E' & S). rewrite E'. f_equal. clear E E' N.
  induction S as [|v w vs vs' H S IH]; [reflexivity|]. f_equal; [|apply IH; [intros Q; apply U; right; exact Q|intros l Q; apply V; right; exact Q]].
  destruct v as [x|a], w as [y|b]; cbn in H; try contradiction H.
  - destruct H as [->| ->]; [reflexivity|]. exfalso. apply U. left. reflexivity.
  - f_equal. specialize (V a (or_introl eq_refl)). clear - H V. induction H as [|x y a b H T IH]; [reflexivity|]. cbn in V.
    destruct H as [->| ->]; [f_equal; apply IH; tauto|tauto].
Qed.
Print Assumptions C93_equal_beside_arrays.

(** NumPy floats never raise. *)
Theorem C93_numpy_never_raises : forall p env e, Forall no_exc env -> run NumPy p env <> Raise e.
Proof. intros p env e. apply run_np. Qed.
Print Assumptions C93_numpy_never_raises.

(** Python floats raise nothing but ZeroDivisionError. *)
Theorem C93_python_only_zero_division : forall p env e,
  Forall no_exc env -> run PyFloat p env = Raise e -> e = ZeroDivisionError.
Proof. intros p env e N. apply run_zde, no_exc_zde, N. Qed.
Print Assumptions C93_python_only_zero_division.

(** These functions do not tell the two apart. *)
Theorem C93_indifferent : forall p env,
  In p [arr_utils_lame; arr_utils_M_from_V; arr_utils_crack_por; arr_GM_ThomasStieber; arr_Perm_Owolabi; arr_Perm_Bernabe;
    arr_Emp_han; arr_Emp_ehrenberg; arr_Emp_ramm_porosity_true; arr_Emp_ramm_porosity_false; arr_Emp_StPeter_1;
    arr_Emp_StPeter_2; arr_Emp_Scherbaum; arr_Emp_Storvoll; arr_Emp_hjelstuen; arr_Emp_Cp; arr_BW_v_water;
    arr_BW_rho_K_water; arr_AVO_zoeppritz] ->
  run PyFloat p env = run NumPy p env.
Proof.
  intros p env H. apply run_lit. revert p H. apply Forall_forall.
  repeat (apply Forall_cons; [cbn; repeat split; lra|]). apply Forall_nil.
Qed.
Print Assumptions C93_indifferent.
(** Nor does any formula raise that divides by literals only. *)
Theorem C93_no_division_never_raises : forall p env e,
  divides_by_literals p -> Forall no_exc env -> run PyFloat p env <> Raise e.
Proof. intros p env e L N. rewrite run_lit by exact L. apply run_np, N. Qed.

(** "NumPy gives inf or nan wherever Python raises" is false: between equal phases the Hashin-Shtrikman bounds divide by 0 on
    the way, Python stops, and NumPy goes on to the right moduli. *)
Theorem C93_visible_zero_division_refuted : forall f K G, (0 < K)%R -> (0 < G)%R ->
  run PyFloat arr_EM_HS_upper [#f; #K; #K; #G; #G] = Raise ZeroDivisionError /\
  run NumPy arr_EM_HS_upper [#f; #K; #K; #G; #G] = Ret [#K; #G].
Proof.
  intros f K G HK HG. rewrite <- !EM_HS_upper_arr.
  rewrite C11_hs_equal_bulk_python_raises, C11_hs_equal_phases_numpy by assumption. split; reflexivity.
Qed.
Print Assumptions C93_visible_zero_division_refuted.

(** The cases occur: Poisson's ratio of a mineral is the same number in both; with both moduli 0 Python raises and NumPy gives nan. *)
Example C93_nonvacuous :
  run PyFloat arr_utils_poi [#36; #44] = run NumPy arr_utils_poi [#36; #44] /\
  (exists v, run PyFloat arr_utils_poi [#36; #44] = Ret [#v] /\ (0 < v < 1 / 2)%R) /\
  run PyFloat arr_utils_poi [#0; #0] = Raise ZeroDivisionError /\ run NumPy arr_utils_poi [#0; #0] = Ret [NaN] /\
  Forall no_exc [#36; #44].
Proof.
  assert (E : exists v, run PyFloat arr_utils_poi [#36; #44] = Ret [#v] /\ (0 < v < 1 / 2)%R).
  { unfold arr_utils_poi. cbn. match goal with |- context [Req_EM_T ?d 0] => destruct (Req_EM_T d 0); [exfalso; lra|] end. cbn.
    eexists. split; [reflexivity|]. lra. }
  assert (N : Forall no_exc [#36; #44]) by (repeat constructor).
  split; [|split; [exact E|split; [|split; [|exact N]]]].
  - destruct E as (v & E & _). rewrite (C93_equal arr_utils_poi _ _ N E); [exact E|]. intros [Q|[]]. discriminate Q.
  - unfold arr_utils_poi. cbn. match goal with |- context [Req_EM_T ?d 0] => destruct (Req_EM_T d 0); [reflexivity|exfalso; lra] end.
  - unfold arr_utils_poi. cbn. repeat match goal with |- context [Req_EM_T ?d 0] => destruct (Req_EM_T d 0); [|exfalso; lra]; cbn end. reflexivity.
Qed.

(** The complex results occur, with NumPy's nan in their place: Brie's law at a negative saturation. *)
Theorem C93_complex_results : forall Kw Kgas Sw e, (Sw < 0)%R -> e <> IZR (Int_part e) ->
  run PyFloat arr_Fluid_Brie [#Kw; #Kgas; #Sw; #e] = Ret [Und] /\ run NumPy arr_Fluid_Brie [#Kw; #Kgas; #Sw; #e] = Ret [NaN].
Proof.
  intros Kw Kgas Sw e S E. unfold arr_Fluid_Brie. cbn.
  destruct (Rlt_dec 0 Sw); [exfalso; lra|]. destruct (Req_EM_T Sw 0); [exfalso; lra|].
  destruct (Req_EM_T e (IZR (Int_part e))); [contradiction|]. split; reflexivity.
Qed.
Print Assumptions C93_complex_results.

Example C93_nonvacuous_arrays : exists v w,
  run_arr PyFloat arr_utils_poi [VA [#36; #37]; VS #44] = Ret [VA [#v; #w]] /\
  run_arr NumPy arr_utils_poi [VA [#36; #37]; VS #44] = Ret [VA [#v; #w]] /\ (0 < v < w)%R.
Proof.
  assert (E : exists v w, run_arr PyFloat arr_utils_poi [VA [#36; #37]; VS #44] = Ret [VA [#v; #w]] /\ (0 < v < w)%R).
  { unfold arr_utils_poi. cbn. repeat match goal with |- context [Req_EM_T ?d 0] => destruct (Req_EM_T d 0); [exfalso; lra|]; cbn end.
    do 2 eexists. split; [reflexivity|]. lra. }
  destruct E as (v & w & E & H). exists v, w. split; [exact E|split; [|exact H]].
  apply C93_equal_beside_arrays; auto.
  - constructor; [|constructor; [exact I|constructor]]. intros x [<-|[<-|[]]]; exact I.
  - intros [Q|[]]. discriminate Q.
  - intros l [Q|[]]. injection Q as <-. intros [Q|[Q|[]]]; discriminate Q.
Qed.
