(** * P_Int: property C88, whole numbers as arguments. *)
From Verif Require Import Fl M_Array M_ArrayFns M_Store M_Int M_IntFns Spec24 L_Int.
Open Scope fl_scope.

(** The annotated programs are those of M_ArrayFns.v (whose results are those of the modelled functions: C79). *)
Theorem C88_programs :
  (forall n k q, In (n, k, q) int_table -> In (n, erasep q) programs) /\
  erasep int_EM_HS_upper = arr_EM_HS_upper /\ erasep int_EM_HS_lower = arr_EM_HS_lower /\ erasep int_Fluid_Brie = arr_Fluid_Brie /\
  erasep int_Fluid_Biot_HF = arr_Fluid_Biot_HF /\ erasep int_Fluid_Geertsma_Smit_HF = arr_Fluid_Geertsma_Smit_HF.
Proof.
  split; [|repeat split; reflexivity]. intros n k q H. unfold int_table in H.
  repeat (destruct H as [[= <- <- <-]|H]; [unfold programs; repeat first [left; reflexivity|right]|]). destruct H.
Qed.
Print Assumptions C88_programs.

(** Python integers, of any size, mixed with floats and arrays of floats: every function gives what it gives for the equal
    floats, whichever literals are integers and however its reciprocals are written. *)
Theorem C88_python_integers : forall m q env,
  python_numbers env -> as_floats (irun m q env) = run_arr m (erasep q) (map to_float env).
Proof. intros m q env H. eapply give_as_floats. apply py_run. exact H. Qed.
Print Assumptions C88_python_integers.

(** Integer arrays: the same, as long as no integer of the run can leave 64 bits. [fits] follows the absolute values through
    the program; [bs] holds bounds on the arguments, [BF] for a float. *)
Lemma nth_Forall2 bs env : Forall2 vok bs env -> forall n, vok (nth n bs BF) (nth n env (NF Und)).
Proof. induction 1 as [|b v bs env H F IH]; intros [|n]; cbn [nth]; auto; exact I. Qed.
Theorem C88_integer_arrays : forall m q q' bs env,
  fits q bs = true -> a_text_of (length env) q' q -> Forall2 vok bs env ->
  as_floats (irun m q' env) = run_arr m (erasep q) (map to_float env).
Proof.
  intros m q q' bs env F W H. eapply give_as_floats. apply (ok_run m q q' (repeat false (length env)) bs env); auto.
  - split; [apply repeat_length|]. intros n. split; [apply nth_Forall2; exact H|].
    intros E. exfalso. destruct (Nat.lt_ge_cases n (length env)).
    + rewrite (nth_repeat_lt _ _ _ _ H0) in E || rewrite nth_repeat in E. discriminate.
    + rewrite nth_overflow in E by (rewrite repeat_length; lia). discriminate.
  - clear - H. induction H; cbn; congruence.
Qed.
Print Assumptions C88_integer_arrays.

(** For 80 of the 85 programs, integers up to 10^k as any of the arguments. *)
Lemma table_fits n k q : In (n, k, q) int_table -> fits q (repeat (BI (10 ^ k)) n) = true.
Proof.
  intros H. unfold int_table in H. repeat (destruct H as [[= <- <- <-]|H]; [vm_compute; reflexivity|]). destruct H.
Qed.
Lemma within_Forall2 b env : (forall v, In v env -> within b v) -> Forall2 vok (repeat (BI b) (length env)) env.
Proof. intros H. induction env as [|v env IH]; cbn; constructor; [apply H; left; auto|apply IH; intros; apply H; right; auto]. Qed.
Theorem C88_table : forall m n k q q' env,
  In (n, k, q) int_table -> length env = n -> a_text_of n q' q -> (forall v, In v env -> within (10 ^ k) v) ->
  as_floats (irun m q' env) = run_arr m (erasep q) (map to_float env).
Proof.
  intros m n k q q' env T L W H. subst n. eapply C88_integer_arrays; eauto; [|apply within_Forall2; exact H]. apply table_fits. exact T.
Qed.
Print Assumptions C88_table.
(** The other five: integer fractions but float moduli for the Hashin-Shtrikman bounds, a float exponent for Brie's law, a float
    tortuosity for the high-frequency limits. *)
Theorem C88_other_functions : forall m q' env,
  (length env = 5%nat /\ within (10 ^ 18) (nth 0 env (NF Und)) /\ (forall i, (0 < i)%nat -> is_float (nth i env (NF Und))) ->
   (a_text_of 5 q' int_EM_HS_upper -> as_floats (irun m q' env) = run_arr m arr_EM_HS_upper (map to_float env)) /\
   (a_text_of 5 q' int_EM_HS_lower -> as_floats (irun m q' env) = run_arr m arr_EM_HS_lower (map to_float env))) /\
  (length env = 4%nat /\ a_text_of 4 q' int_Fluid_Brie /\ is_float (nth 3 env (NF Und)) /\
   (forall i, (i < 3)%nat -> within (10 ^ 18) (nth i env (NF Und))) ->
   as_floats (irun m q' env) = run_arr m arr_Fluid_Brie (map to_float env)) /\
  (length env = 8%nat /\ is_float (nth 7 env (NF Und)) /\ (forall i, (i < 7)%nat -> within (10 ^ 6) (nth i env (NF Und))) ->
   (a_text_of 8 q' int_Fluid_Biot_HF -> as_floats (irun m q' env) = run_arr m arr_Fluid_Biot_HF (map to_float env)) /\
   (a_text_of 8 q' int_Fluid_Geertsma_Smit_HF -> as_floats (irun m q' env) = run_arr m arr_Fluid_Geertsma_Smit_HF (map to_float env))).
Proof.
  intros m q' env. split; [|split].
  - intros (L & F0 & F). destruct env as [|a [|b [|c [|d [|e [|? ?]]]]]]; try discriminate.
    assert (V : Forall2 vok [BI (10 ^ 18); BF; BF; BF; BF] [a; b; c; d; e]).
    { repeat apply Forall2_cons; [exact F0|apply (F 1%nat)|apply (F 2%nat)|apply (F 3%nat)|apply (F 4%nat)|constructor]; lia. }
    split; intros W.
    + refine (C88_integer_arrays m int_EM_HS_upper q' _ [a; b; c; d; e] _ W V). vm_compute. reflexivity.
    + refine (C88_integer_arrays m int_EM_HS_lower q' _ [a; b; c; d; e] _ W V). vm_compute. reflexivity.
  - intros (L & W & F3 & F). destruct env as [|a [|b [|c [|d [|? ?]]]]]; try discriminate.
    assert (V : Forall2 vok [BI (10 ^ 18); BI (10 ^ 18); BI (10 ^ 18); BF] [a; b; c; d]).
    { repeat apply Forall2_cons; [apply (F 0%nat)|apply (F 1%nat)|apply (F 2%nat)|exact F3|constructor]; lia. }
    refine (C88_integer_arrays m int_Fluid_Brie q' _ [a; b; c; d] _ W V). vm_compute. reflexivity.
  - intros (L & F7 & F). destruct env as [|a [|b [|c [|d [|e [|f [|g [|h [|? ?]]]]]]]]]; try discriminate.
    assert (V : Forall2 vok [BI (10 ^ 6); BI (10 ^ 6); BI (10 ^ 6); BI (10 ^ 6); BI (10 ^ 6); BI (10 ^ 6); BI (10 ^ 6); BF] [a; b; c; d; e; f; g; h]).
    { repeat apply Forall2_cons; [apply (F 0%nat)|apply (F 1%nat)|apply (F 2%nat)|apply (F 3%nat)|apply (F 4%nat)|apply (F 5%nat)|apply (F 6%nat)|exact F7|constructor]; lia. }
    split; intros W.
    + refine (C88_integer_arrays m int_Fluid_Biot_HF q' _ [a; b; c; d; e; f; g; h] _ W V). vm_compute. reflexivity.
    + refine (C88_integer_arrays m int_Fluid_Geertsma_Smit_HF q' _ [a; b; c; d; e; f; g; h] _ W V). vm_compute. reflexivity.
Qed.
Print Assumptions C88_other_functions.

(** ** Where whole numbers are refused or go wrong. *)
(** [t] is evaluated in the course of [e], of the program. *)
Fixpoint part (t e : iexpr) : Prop :=
  e = t \/ match e with IOp1 _ a => part t a | IOp2 _ a b => part t a \/ part t b | IRecip a => part t a | _ => False end.
Fixpoint partp (t : iexpr) (p : iprog) : Prop :=
  match p with IRet es => exists e, In e es /\ part t e | ILet e p => part t e \/ partp t p | IIf _ _ _ _ _ => False end.
Definition no_value {A} (o : outcome A) : Prop := forall v, o <> Ret v.
Lemma part_no_value m env t e : no_value (iev m env t) -> part t e -> no_value (iev m env e).
Proof.
  intros N. induction e as [n|r|z|o e IH|o e1 IH1 e2 IH2|e IH]; cbn [part]; intros H.
  1-3: destruct H as [<-|[]]; exact N.
  - destruct H as [<-|H]; [exact N|]. cbn [iev]. intros v E. destruct (iev m env e) as [u|x|]; cbn [call] in E; try discriminate. apply (IH H u). reflexivity.
  - destruct H as [<-|[H|H]]; [exact N| |]; cbn [iev]; intros v E; destruct (iev m env e1) as [u|x|]; cbn [call] in E; try discriminate.
    + apply (IH1 H u). reflexivity.
    + destruct (iev m env e2) as [w|x|]; cbn [call] in E; try discriminate. apply (IH2 H w). reflexivity.
  - destruct H as [<-|H]; [exact N|]. cbn [iev]. intros v E. destruct (iev m env e) as [u|x|]; cbn [call] in E; try discriminate. apply (IH H u). reflexivity.
Qed.
Lemma partp_no_value m t p : forall env, (forall new, no_value (iev m (env ++ new) t)) -> partp t p -> no_value (irun m p env).
Proof.
  induction p as [es|e p IH|c e1 e2 p IHp q IHq]; intros env N H; cbn [partp] in H; try contradiction; cbn [irun].
  - destruct H as (e & He & H). specialize (N []). rewrite app_nil_r in N. pose proof (part_no_value m env t e N H) as K. clear N H.
    induction es as [|e' es IH]; [destruct He|]. cbn [ievs]. intros v E. destruct (iev m env e') as [u|x|] eqn:E'; cbn [call] in E; try discriminate.
    destruct He as [->|He]; [apply (K u); exact E'|]. destruct (ievs m env es) as [us|x|]; cbn [call] in E; try discriminate. apply (IH He us). reflexivity.
  - intros v E. destruct (iev m env e) as [u|x|] eqn:E'; cbn [call] in E; try discriminate. destruct H as [H|H].
    + specialize (N []). rewrite app_nil_r in N. apply (part_no_value m env t e N H u). exact E'.
    + apply (IH (env ++ [u])) in E; auto. intros new. rewrite <- app_assoc. apply N.
Qed.
(** Whole numbers, and at least one; in an array. *)
Definition integers (v : ival) : Prop := match v with NI _ | AI (_ :: _) => True | _ => False end.
Definition integer_array (v : ival) : Prop := match v with AI (_ :: _) => True | _ => False end.

Lemma recip_no_value m env i : (i < length env)%nat -> integer_array (nth i env (NF Und)) ->
  forall new, no_value (iev m (env ++ new) (IRecip (IVar i))).
Proof.
  intros L H new v E. cbn [iev call] in E. rewrite app_nth1 in E by assumption. destruct (nth i env (NF Und)) as [x|x|[|x a]|x]; try contradiction. discriminate.
Qed.
Lemma recip_diff_no_value m env i j : (i < length env)%nat -> (j < length env)%nat ->
  integers (nth i env (NF Und)) -> integers (nth j env (NF Und)) -> integer_array (nth i env (NF Und)) \/ integer_array (nth j env (NF Und)) ->
  forall new, no_value (iev m (env ++ new) (IRecip (IOp2 OSub (IVar i) (IVar j)))).
Proof.
  intros Li Lj Hi Hj H new v E. cbn [iev call] in E. rewrite !app_nth1 in E by assumption.
  destruct (nth i env (NF Und)) as [x|x|[|x a]|x], (nth j env (NF Und)) as [y|y|[|y c]|y]; try contradiction;
    unfold iapp2 in E; cbn [is_int andb zop zarr] in E.
  - destruct H as [[]|[]].
  - destruct (in64 x); cbn [call map irecip] in E; discriminate.
  - destruct (in64 y); cbn [call map irecip] in E; discriminate.
  - unfold zbroadcast in E. destruct (Nat.eqb _ _); [cbn in E; discriminate|]. destruct a; [cbn in E; discriminate|]. destruct c; cbn in E; discriminate.
Qed.
(** The Hashin-Shtrikman bounds do not return when both bulk moduli, or both shear moduli, are whole numbers and those of one
    phase are in an array - whatever the other arguments. *)
Theorem C88_hs_integer_moduli_refuted : forall m f K1 K2 G1 G2,
  (integers K1 /\ integers K2 /\ (integer_array K1 \/ integer_array K2)) \/
  (integers G1 /\ integers G2 /\ (integer_array G1 \/ integer_array G2)) ->
  forall vs, irun m int_EM_HS_upper [f; K1; K2; G1; G2] <> Ret vs /\ irun m int_EM_HS_lower [f; K1; K2; G1; G2] <> Ret vs.
Proof.
  intros m f K1 K2 G1 G2 H vs.
  assert (P : forall i j, (i < 5)%nat -> (j < 5)%nat -> integers (nth i [f; K1; K2; G1; G2] (NF Und)) -> integers (nth j [f; K1; K2; G1; G2] (NF Und)) ->
     integer_array (nth i [f; K1; K2; G1; G2] (NF Und)) \/ integer_array (nth j [f; K1; K2; G1; G2] (NF Und)) ->
     forall q, partp (IRecip (IOp2 OSub (IVar i) (IVar j))) q -> irun m q [f; K1; K2; G1; G2] <> Ret vs).
  { intros i j Li Lj Hi Hj HH q Q. eapply partp_no_value; [|exact Q]. apply recip_diff_no_value; assumption. }
  destruct H as [(H1 & H2 & H3)|(H1 & H2 & H3)]; split.
  - apply (P 2%nat 1%nat); try (cbn; lia); try assumption; [tauto|]. unfold int_EM_HS_upper. cbn. tauto.
  - apply (P 1%nat 2%nat); try (cbn; lia); try assumption. unfold int_EM_HS_lower. cbn. tauto.
  - apply (P 4%nat 3%nat); try (cbn; lia); try assumption; [tauto|]. unfold int_EM_HS_upper. cbn. tauto.
  - apply (P 3%nat 4%nat); try (cbn; lia); try assumption. unfold int_EM_HS_lower. cbn. tauto.
Qed.
Print Assumptions C88_hs_integer_moduli_refuted.
(** Nor do the high-frequency limits of Biot and of Geertsma and Smit when the tortuosities are an integer array. *)
Theorem C88_integer_tortuosity_refuted : forall m a b c d e f g alpha,
  integer_array alpha ->
  forall vs, irun m int_Fluid_Biot_HF [a; b; c; d; e; f; g; alpha] <> Ret vs /\
             irun m int_Fluid_Geertsma_Smit_HF [a; b; c; d; e; f; g; alpha] <> Ret vs.
Proof.
  intros m a b c d e f g alpha H vs. split; apply (partp_no_value m (IRecip (IVar 7))).
  - apply recip_no_value; [cbn; lia|exact H].
  - unfold int_Fluid_Biot_HF. cbn. tauto.
  - apply recip_no_value; [cbn; lia|exact H].
  - unfold int_Fluid_Geertsma_Smit_HF. cbn. tauto.
Qed.
Print Assumptions C88_integer_tortuosity_refuted.
(** Brie's law does not return for an integer exponent below 0 when the saturation is an integer array, or the exponent itself. *)
Definition below_zero (v : ival) : Prop := match v with NI y => (y < 0)%Z | AI l => exists y, In y l /\ (y < 0)%Z | _ => False end.
Theorem C88_brie_negative_exponent_refuted : forall m Kw Kgas Sw e,
  integers Sw -> integers e -> integer_array Sw \/ integer_array e -> below_zero e ->
  forall vs, irun m int_Fluid_Brie [Kw; Kgas; Sw; e] <> Ret vs.
Proof.
  intros m Kw Kgas Sw e H1 H2 H3 H4 vs. apply (partp_no_value m (IOp2 OPow (IVar 2) (IVar 3))); [|unfold int_Fluid_Brie; cbn; tauto].
  intros new v E. cbn [iev call nth app] in E.
  assert (N : negatives e = true).
  { destruct e as [y|y|l|l]; try contradiction; cbn [negatives below_zero] in *; [|destruct H4 as (y & Hy & N); apply existsb_exists; exists y; split; auto]; apply Z.ltb_lt; assumption. }
  destruct Sw as [x|x|[|x a]|x], e as [y|y|[|y c]|y]; try contradiction; unfold iapp2 in E; cbn [is_int andb empty orb] in E; rewrite ?N in E; try discriminate.
  destruct H3 as [[]|[]].
Qed.
Print Assumptions C88_brie_negative_exponent_refuted.
(** It is a ValueError for water and gas, where floats give a number. *)
Theorem C88_brie_value_error : forall m,
  irun m int_Fluid_Brie [NF #(22/10); NF #(1/10); AI [1%Z]; NI (-1)%Z] = Raise ValueError /\
  exists K, run_arr m arr_Fluid_Brie (map to_float [NF #(22/10); NF #(1/10); AI [1%Z]; NI (-1)%Z]) = Ret [VA [Fin K]].
Proof.
  intros m. split; [unfold int_Fluid_Brie; cbn; reflexivity|].
  unfold arr_Fluid_Brie. cbn -[fpow]. unfold z2f. rewrite fpow_fin by lra. cbn. eauto.
Qed.
Print Assumptions C88_brie_value_error.
(** For instance quartz and water: a ValueError for [np.array([37])] and [np.array([2])], numbers for [37.0] and [2.0]. *)
Theorem C88_hs_value_error : forall m,
  irun m int_EM_HS_upper [NF #(1/2); AI [37]; AI [2]; AI [44]; AI [1]]%Z = Raise ValueError /\
  exists K G, run_arr m arr_EM_HS_upper (map to_float [NF #(1/2); AI [37]; AI [2]; AI [44]; AI [1]]%Z) = Ret [VA [Fin K]; VA [Fin G]].
Proof.
  intros m. split; [unfold int_EM_HS_upper; cbn; reflexivity|].
  unfold arr_EM_HS_upper. cbn. repeat (destruct (Req_EM_T _ _); [exfalso; lra|cbn]). eauto.
Qed.
Print Assumptions C88_hs_value_error.
(** 64 bits are left silently: the stiffness of a sphere pack from moduli in pascal is not a number when the moduli are integer
    arrays, and a number when they are floats. (Python integers are right: C88_python_integers.) *)
Theorem C88_overflow_refuted :
  let args := [AI [37000000000]; AI [44000000000]; NF #(4/10); NI 9; AI [20000000000]; NI 1]%Z in
  (exists G, irun NumPy int_GM_hertzmindlin args = Ret [AF [NaN]; G]) /\
  exists K G, run_arr NumPy arr_GM_hertzmindlin (map to_float args) = Ret [VA [Fin K]; VA [Fin G]].
Proof.
  assert (P0 := PI_RGT_0). assert (P2 : 0 < PI ^ 2) by (apply pow_lt; lra).
  assert (T : forall z, 1 / 3 <> IZR z).
  { intros z E. assert (IZR (3 * z) = IZR 1) by (rewrite mult_IZR; lra). apply eq_IZR in H. lia. }
  cbv zeta. split.
  - eexists. unfold int_GM_hertzmindlin.
    assert (W : wrap64 (44000000000 ^ Z.of_nat 2) = (-908127739502919680)%Z) by (vm_compute; reflexivity).
    assert (W3 : wrap64 (3 * 37000000000) = 111000000000%Z) by (vm_compute; reflexivity).
    assert (W2 : wrap64 (2 * 44000000000) = 88000000000%Z) by (vm_compute; reflexivity).
    assert (W6 : wrap64 (6 * 37000000000) = 222000000000%Z) by (vm_compute; reflexivity).
    assert (WS : wrap64 (111000000000 - 88000000000) = 23000000000%Z) by (vm_compute; reflexivity).
    assert (WA : wrap64 (222000000000 + 88000000000) = 310000000000%Z) by (vm_compute; reflexivity).
    cbn [irun iev call nth app iapp2 is_int andb zop zarr iapp1 map to_float].
    rewrite W, W2, W3, W6. change (in64 3) with true. change (in64 2) with true. change (in64 6) with true.
    cbn -[fadd fsub fmul fdiv fpow fpown wrap64 Z.mul Z.pow Z.add Z.sub Rdiv PI IZR].
    rewrite ?WS, ?WA. unfold z2f.
    cbn -[fadd fsub fmul fdiv fpow fpown wrap64 Z.mul Z.pow Z.add Z.sub Rdiv PI IZR].
    change (9 ^ 2)%Z with 81%Z. change (3 * 81)%Z with 243%Z. change (1 + 3 * 1)%Z with 4%Z.
    change (2 + 3 * 1)%Z with 5%Z.
    assert (N2 : 0 < (1 - 23000000000 / 310000000000) ^ 2) by (apply pow_lt; lra).
    assert (F6 : 0 < (1 - 4 / 10) ^ 2) by (apply pow_lt; lra).
    assert (NN : forall c, 0 < c -> (c * PI ^ 2 * (1 - 23000000000 / 310000000000) ^ 2)%R <> 0)
      by (intros c C; apply Rgt_not_eq; apply Rmult_lt_0_compat; [apply Rmult_lt_0_compat|]; assumption).
    do 40 (try (repeat first [fl1|rewrite fdiv_fin by (first [lra|apply NN; lra])]);
      cbn -[fadd fsub fmul fdiv fpow fpown wrap64 Z.mul Z.pow Z.add Z.sub Rdiv PI IZR pow Rmult Rminus Rplus]; unfold z2f).
    assert (B : forall x c, (0 < c -> x < 0 -> x / (c * PI ^ 2 * (1 - 23000000000 / 310000000000) ^ 2) < 0)%R).
    { intros x c C X. assert (D : (0 < c * PI ^ 2 * (1 - 23000000000 / 310000000000) ^ 2)%R)
        by (apply Rmult_lt_0_compat; [apply Rmult_lt_0_compat|]; assumption).
      unfold Rdiv at 1. assert (I := Rinv_0_lt_compat _ D). nra. }
    rewrite fpow_neg_np by (solve [exact T | apply B; lra]). reflexivity.
  - unfold arr_GM_hertzmindlin.
    cbn -[fadd fsub fmul fdiv fpow fpown Rdiv PI IZR pow Rmult Rminus Rplus]. unfold z2f.
    assert (N1 : 0 < (1 - (3 * 37000000000 - 2 * 44000000000) / (6 * 37000000000 + 2 * 44000000000)) ^ 2) by (apply pow_lt; lra).
    assert (F6 : 0 < (1 - 4 / 10) ^ 2) by (apply pow_lt; lra).
    assert (S9 : 0 < 9 ^ 2) by (apply pow_lt; lra). assert (S44 : 0 < 44000000000 ^ 2) by (apply pow_lt; lra).
    do 40 (try (repeat first [fl1|rewrite fdiv_fin by (first [lra|solve [pos]])|rewrite fpow_fin by pos]);
      cbn -[fadd fsub fmul fdiv fpow fpown Rdiv PI IZR pow Rmult Rminus Rplus]).
    eauto.
Qed.
Print Assumptions C88_overflow_refuted.

(** ** The hypotheses are met *)
(** Integer bulk moduli in an array, a Python shear modulus, a float density: in the table, and within its limit. *)
Example C88_nonvacuous_table : forall m,
  let args := [AI [36; 37]; NI 44; NF #(265/100)]%Z in
  In (3%nat, 18%Z, int_utils_V) int_table /\ a_text_of 3 int_utils_V int_utils_V /\ (forall v, In v args -> within (10 ^ 18) v) /\
  as_floats (irun m int_utils_V args) = run_arr m arr_utils_V (map to_float args).
Proof.
  intros m args.
  assert (T : In (3%nat, 18%Z, int_utils_V) int_table) by (left; reflexivity).
  assert (W : a_text_of 3 int_utils_V int_utils_V) by (cbv; repeat split; reflexivity).
  assert (B : forall v, In v args -> within (10 ^ 18) v).
  { intros v [<-|[<-|[<-|[]]]]; cbn [within]; try exact I; [intros z [<-|[<-|[]]]|]; vm_compute; discriminate. }
  repeat split; auto. exact (C88_table m 3 18 int_utils_V int_utils_V args T eq_refl W B).
Qed.
(** The same lines with [4.0] for [4] are another text of the same function; [3.0] for [4] is none. *)
Example C88_nonvacuous_text :
  a_text_of 2 (IRet [IOp2 OMul (IFlt 4) (IVar 0); IOp2 ODiv (IInt 1) (IVar 1)]) (IRet [IOp2 OMul (IInt 4) (IVar 0); IOp2 ODiv (IInt 1) (IVar 1)]) /\
  ~ a_text_of 2 (IRet [IOp2 OMul (IFlt 3) (IVar 0)]) (IRet [IOp2 OMul (IInt 4) (IVar 0)]) /\
  ~ a_text_of 2 (IRet [IRecip (IVar 0)]) (IRet [IOp2 ODiv (IInt 1) (IVar 0)]).
Proof.
  cbn. split; [intuition reflexivity|split].
  - intros (H & _). lra.
  - intros ((_ & _ & H & _) & _). discriminate.
Qed.
Example C88_nonvacuous_python : python_numbers [NI (10 ^ 40); NF #(1/2); AF [#1; #2]].
Proof. intros v [<-|[<-|[<-|[]]]]; exact I. Qed.
Example C88_nonvacuous_other : within (10 ^ 18) (AI [0; 1]%Z) /\ is_float (AF [#37]) /\ integer_array (AI [2; 3]%Z) /\ integers (NI 37).
Proof. repeat split. intros z [<-|[<-|[]]]; vm_compute; discriminate. Qed.
