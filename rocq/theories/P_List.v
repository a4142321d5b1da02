(** * C91: Python lists in place of arrays. *)
From Verif Require Import Fl M_Array M_ArrayFns M_Store M_Int M_IntFns M_List Spec24 Spec27 L_Int L_List.
Open Scope fl_scope.

(** The functions of M_IntFns.v with their numbers of arguments, but QI.matrix_modulus, which stacks its arguments with
    np.array and np.vstack. First those that never take a list along with Python numbers, then the three that do. *)
Definition deaf_functions : list (nat * iprog) :=
  [(3%nat, int_utils_V); (2%nat, int_utils_poi); (2%nat, int_utils_lame); (3%nat, int_utils_M_from_V);
   (2%nat, int_utils_crack_por); (4%nat, int_EM_cripor); (6%nat, int_EM_hudson_rand); (3%nat, int_EM_Dilute_crack);
   (3%nat, int_EM_OConnell_Budiansky); (5%nat, int_EM_SC_dilute_stress); (5%nat, int_EM_SC_dilute_strain);
   (7%nat, int_EM_MT_average); (9%nat, int_Anis_Thomsen_Tsvankin); (7%nat, int_Fluid_Geertsma_Smit_LF);
   (5%nat, int_Fluid_Gassmann_sub); (7%nat, int_Fluid_vels); (9%nat, int_Fluid_Gassmann_vels); (5%nat, int_Fluid_Gassmann_approx);
   (9%nat, int_Fluid_Mavko_Jizba); (3%nat, int_GM_ThomasStieber); (5%nat, int_GM_silty_shale); (6%nat, int_GM_shaly_sand);
   (7%nat, int_GM_contactcement_1); (7%nat, int_GM_contactcement_2); (6%nat, int_GM_hertzmindlin); (7%nat, int_GM_softsand);
   (6%nat, int_GM_Walton); (7%nat, int_GM_stiffsand); (8%nat, int_GM_constantcement_1); (8%nat, int_GM_constantcement_2);
   (8%nat, int_GM_MUHS_1); (8%nat, int_GM_MUHS_2); (2%nat, int_Perm_Kozeny_Carman); (4%nat, int_Perm_Kozeny_Carman_Percolation);
   (2%nat, int_Perm_Owolabi); (2%nat, int_Perm_Perm_logs); (5%nat, int_Perm_Panda_Lake); (2%nat, int_Perm_Panda_Lake_cem);
   (2%nat, int_Perm_Revil); (3%nat, int_Perm_Fredrich); (3%nat, int_Perm_Bloch); (4%nat, int_Perm_Bernabe); (3%nat, int_Emp_krief);
   (2%nat, int_Emp_esti_VS); (2%nat, int_Emp_han); (1%nat, int_Emp_ehrenberg); (1%nat, int_Emp_ramm_porosity_true);
   (1%nat, int_Emp_ramm_porosity_false); (1%nat, int_Emp_StPeter_1); (1%nat, int_Emp_StPeter_2); (1%nat, int_Emp_Scherbaum);
   (1%nat, int_Emp_Sclater); (1%nat, int_Emp_Storvoll); (1%nat, int_Emp_Hillis); (1%nat, int_Emp_hjelstuen); (1%nat, int_Emp_Cp);
   (2%nat, int_BW_dz_dp); (3%nat, int_BW_pseudo_p_t); (3%nat, int_BW_rho_K_co2); (3%nat, int_BW_rho_K_gas);
   (3%nat, int_BW_rho_K_oil); (4%nat, int_BW_rho_K_go_sat); (2%nat, int_BW_v_water); (2%nat, int_BW_rho_K_water);
   (3%nat, int_BW_v_brine); (3%nat, int_BW_rho_K_brine); (4%nat, int_BW_co2_brine_true); (4%nat, int_BW_co2_brine_false);
   (6%nat, int_AVO_AVO_abe); (17%nat, int_AVO_AVO_ortho); (12%nat, int_GM_pcm_stiff_1); (12%nat, int_GM_pcm_stiff_2);
   (12%nat, int_GM_pcm_soft_1); (12%nat, int_GM_pcm_soft_2); (13%nat, int_GM_vpcm_1); (13%nat, int_GM_vpcm_2);
   (5%nat, int_EM_HS_upper); (5%nat, int_EM_HS_lower); (4%nat, int_Fluid_Brie); (8%nat, int_Fluid_Biot_HF);
   (8%nat, int_Fluid_Geertsma_Smit_HF)].
Definition list_functions : list (nat * iprog) :=
  (7%nat, int_Anis_Thomsen) :: (5%nat, int_Fluid_Gassmann) :: (7%nat, int_AVO_zoeppritz) :: deaf_functions.
(** The functions that never mistake a list, whatever the other arguments. *)
Definition safe_functions : list (nat * iprog) :=
  [(3%nat, int_utils_V); (2%nat, int_utils_lame); (2%nat, int_utils_crack_por); (4%nat, int_EM_cripor);
   (3%nat, int_EM_Dilute_crack); (5%nat, int_Fluid_Gassmann); (5%nat, int_Fluid_Gassmann_sub); (5%nat, int_Fluid_Gassmann_approx);
   (2%nat, int_Perm_Kozeny_Carman); (2%nat, int_Perm_Owolabi); (2%nat, int_Perm_Perm_logs); (2%nat, int_Perm_Panda_Lake_cem);
   (2%nat, int_Perm_Revil); (3%nat, int_Perm_Fredrich); (3%nat, int_Perm_Bloch); (4%nat, int_Perm_Bernabe); (3%nat, int_Emp_krief);
   (2%nat, int_Emp_esti_VS); (2%nat, int_Emp_han); (1%nat, int_Emp_ehrenberg); (1%nat, int_Emp_ramm_porosity_true);
   (1%nat, int_Emp_ramm_porosity_false); (1%nat, int_Emp_StPeter_1); (1%nat, int_Emp_StPeter_2); (1%nat, int_Emp_Scherbaum);
   (1%nat, int_Emp_Sclater); (1%nat, int_Emp_Storvoll); (1%nat, int_Emp_Hillis); (1%nat, int_Emp_hjelstuen); (1%nat, int_Emp_Cp);
   (2%nat, int_BW_dz_dp); (3%nat, int_BW_pseudo_p_t); (3%nat, int_BW_rho_K_co2); (3%nat, int_BW_rho_K_gas);
   (3%nat, int_BW_rho_K_oil); (4%nat, int_BW_rho_K_go_sat); (2%nat, int_BW_v_water); (2%nat, int_BW_rho_K_water);
   (3%nat, int_BW_v_brine); (3%nat, int_BW_rho_K_brine); (4%nat, int_BW_co2_brine_true); (4%nat, int_BW_co2_brine_false);
   (6%nat, int_AVO_AVO_abe); (5%nat, int_EM_HS_upper); (5%nat, int_EM_HS_lower); (4%nat, int_Fluid_Brie)].

Theorem C91_programs : forall n q, In (n, q) list_functions -> In (n, erasep q) programs.
Proof.
  intros n q H. unfold list_functions, deaf_functions in H.
  repeat (destruct H as [[= <- <-]|H]; [unfold programs; repeat first [left; reflexivity|right]|]). destruct H.
Qed.
Print Assumptions C91_programs.

Lemma same m q q' n env : length env = n -> a_text_of n q' q -> honest q (map kind_of env) = true ->
  same_as_arrays m (erasep q) env (lrun m q' env).
Proof. intros L W H vs I. refine (honest_ok m q q' _ (map kind_of env) env vs _ (kind_of_ok env) W H I). apply map_length. Qed.
Lemma deaf m q q' n env : length env = n -> a_text_of n q' q -> kraises q (map kind_of env) = true -> never_returns (lrun m q' env).
Proof.
  intros L W H. split; [apply lrun_some|]. intros vs I.
  destruct (raises_ok m q q' _ (map kind_of env) env _ (map_length _ _) (kind_of_ok env) W H I) as [(x & X)|X]; discriminate.
Qed.
Lemma plain_kinds env : (forall v, In v env -> plain_python v) -> forall v, In v env -> In (kind_of v) [KInt; KLst].
Proof. intros P v H. apply P in H. destruct v as [|[|]| |]; cbn in *; tauto. Qed.

(** Called with lists and Python numbers, a function returns what it returns for arrays, or nothing: it never joins or repeats a
    list unnoticed, whichever literals are integers. *)
Theorem C91_plain_python : forall m n q q' env,
  In (n, q) list_functions -> length env = n -> a_text_of n q' q -> (forall v, In v env -> plain_python v) ->
  same_as_arrays m (erasep q) env (lrun m q' env).
Proof.
  intros m n q q' env T L W P. apply (same m q q' n env L W). apply (every_env [KInt; KLst]); [apply plain_kinds, P|]. rewrite L. clear - T.
  unfold list_functions, deaf_functions in T. repeat (destruct T as [[= <- <-]|T]; [vm_compute; reflexivity|]). destruct T.
Qed.
Print Assumptions C91_plain_python.

(** And 81 of the 84 return nothing at all if any argument is a list. *)
Definition has_list (ks : list kind) : bool := existsb (fun k => match k with KLst => true | _ => false end) ks.
Lemma has_list_in env v : In v env -> is_list v -> has_list (map kind_of env) = true.
Proof. intros H L. apply existsb_exists. exists (kind_of v). split; [apply in_map, H|]. destruct v; [contradiction..|reflexivity]. Qed.
Theorem C91_no_lists : forall m n q q' env v,
  In (n, q) deaf_functions -> length env = n -> a_text_of n q' q -> (forall w, In w env -> plain_python w) -> In v env -> is_list v ->
  never_returns (lrun m q' env).
Proof.
  intros m n q q' env v T L W P H V. apply (deaf m q q' n env L W).
  assert (E : all_kinds [KInt; KLst] (length env) (fun ks => if has_list ks then kraises q ks else true) [] = true).
  { rewrite L. clear - T. unfold deaf_functions in T. repeat (destruct T as [[= <- <-]|T]; [vm_compute; reflexivity|]). destruct T. }
  apply every_env in E; [|apply plain_kinds, P]. cbv beta in E. rewrite (has_list_in env v H V) in E. exact E.
Qed.
Print Assumptions C91_no_lists.

(** The other three take a list in some places only: Thomsen the angles, Gassmann the shear modulus (which it hands back),
    zoeppritz the P-wave velocities and the angles. *)
Definition at_most (is : list nat) (env : list lval) : Prop := forall i, is_list (nth i env (LF false Und)) -> In i is.
Lemma nth_kind i env : is_list (nth i env (LF false Und)) -> nth i (map kind_of env) KTop = KLst.
Proof.
  intros H. destruct (Nat.lt_ge_cases i (length env)) as [Q|Q]; [|rewrite nth_overflow in H by auto; contradiction].
  rewrite (nth_indep _ KTop (kind_of (LF false Und))) by (rewrite map_length; exact Q). rewrite map_nth. destruct (nth i env _); [contradiction..|reflexivity].
Qed.
Definition allowed (is : list nat) (ks : list kind) : bool :=
  every (fun i => match nth i ks KTop with KLst => existsb (Nat.eqb i) is | _ => true end) (seq 0 (length ks)).
Lemma at_most_allowed is env : allowed is (map kind_of env) = true -> at_most is env.
Proof.
  intros H i L. assert (K := nth_kind i env L). assert (Q : (i < length env)%nat).
  { destruct (Nat.lt_ge_cases i (length env)) as [Q|Q]; [exact Q|]. rewrite nth_overflow in L by exact Q. contradiction. }
  assert (E := every_in _ _ H i). cbv beta in E. rewrite K in E.
  assert (I : In i (seq 0 (length (map kind_of env)))) by (apply in_seq; rewrite map_length; lia).
  apply E in I. apply existsb_exists in I as (j & J & Ej). apply Nat.eqb_eq in Ej. subst j. exact J.
Qed.
Lemma allowed_at_most is env : at_most is env -> allowed is (map kind_of env) = true.
Proof.
  intros M. unfold allowed. induction (seq 0 (length (map kind_of env))) as [|i l IH]; [reflexivity|]. cbn [every].
  destruct (nth i (map kind_of env) KTop) eqn:K; try exact IH.
  assert (L : is_list (nth i env (LF false Und))).
  { destruct (Nat.lt_ge_cases i (length env)) as [Q|Q]; [|rewrite nth_overflow in K by (rewrite map_length; exact Q); discriminate].
    rewrite (nth_indep _ KTop (kind_of (LF false Und))), map_nth in K by (rewrite map_length; exact Q). destruct (nth i env _) as [|[|]| |]; try discriminate K. exact I. }
  assert (E : existsb (Nat.eqb i) is = true) by (apply existsb_exists; exists i; split; [apply M, L|apply Nat.eqb_refl]). rewrite E. exact IH.
Qed.
Theorem C91_where_lists : forall m n q q' env vs,
  length env = n -> a_text_of n q' q -> (forall w, In w env -> plain_python w) -> In (Ret vs) (lrun m q' env) ->
  ((n, q) = (7%nat, int_Anis_Thomsen) -> at_most [6%nat] env) /\
  ((n, q) = (5%nat, int_Fluid_Gassmann) -> at_most [1%nat] env) /\
  ((n, q) = (7%nat, int_AVO_zoeppritz) -> at_most [0%nat; 3%nat; 6%nat] env).
Proof.
  intros m n q q' env vs L W P I.
  assert (A : forall is, all_kinds [KInt; KLst] n (fun ks => if allowed is ks then true else kraises q ks) [] = true -> at_most is env).
  { intros is E. rewrite <- L in E. apply every_env in E; [|apply plain_kinds, P]. cbv beta in E. apply at_most_allowed.
    destruct (allowed is (map kind_of env)); [reflexivity|]. destruct (deaf m q q' n env L W E) as [_ D]. destruct (D vs I). }
  split; [|split]; intros [= -> ->]; apply A; vm_compute; reflexivity.
Qed.
Print Assumptions C91_where_lists.

(** There they do take lists: where the arrays give a result, so can the lists, and the same. *)
Theorem C91_takes_lists : forall m n q env us,
  length env = n -> (forall w, In w env -> plain_python w) -> run_arr m (erasep q) (map as_array env) = Ret us ->
  ((n, q) = (7%nat, int_Anis_Thomsen) /\ at_most [6%nat] env) \/
  ((n, q) = (5%nat, int_Fluid_Gassmann) /\ at_most [1%nat] env) \/
  ((n, q) = (7%nat, int_AVO_zoeppritz) /\ at_most [0%nat; 3%nat; 6%nat] env) ->
  exists vs, In (Ret vs) (lrun m q env) /\ map as_array vs = us.
Proof.
  intros m n q env us L P E H.
  assert (A : forall is, at_most is env -> all_kinds [KInt; KLst] n (fun ks => if allowed is ks then hearp q ks else true) [] = true ->
    exists vs, In (Ret vs) (lrun m q env) /\ map as_array vs = us).
  { intros is M T. rewrite <- L in T. apply every_env in T; [|apply plain_kinds, P]. cbv beta in T. rewrite (allowed_at_most is env M) in T.
    exact (hearp_ok m q _ env us (map_length _ _) (kind_of_is env) T E). }
  destruct H as [[[= -> ->] M]|[[[= -> ->] M]|[[= -> ->] M]]]; apply (A _ M); vm_compute; reflexivity.
Qed.
Print Assumptions C91_takes_lists.

(** 46 functions return what they return for arrays, or nothing, also when lists are mixed with arrays and NumPy numbers. *)
Theorem C91_mixed : forall m n q q' env,
  In (n, q) safe_functions -> length env = n -> a_text_of n q' q -> same_as_arrays m (erasep q) env (lrun m q' env).
Proof.
  intros m n q q' env T L W. apply (same m q q' n env L W). apply (every_env [KInt; KNp; KArr; KLst]).
  - intros v _. destruct v as [|[|]| |]; cbn; tauto.
  - rewrite L. clear - T. unfold safe_functions in T. repeat (destruct T as [[= <- <-]|T]; [vm_compute; reflexivity|]). destruct T.
Qed.
Print Assumptions C91_mixed.

(** The others are not safe in such a mixture: [poi(np.array([K1, K2]), [G])] repeats the list where it means to double it, and
    returns another Poisson's ratio for every positive K1, K2, G. *)
Theorem C91_poi_refuted : forall m K1 K2 G,
  0 < K1 -> 0 < K2 -> 0 < G ->
  let args := [LA [Fin K1; Fin K2]; LL [Fin G]] in
  lrun m int_utils_poi args = [Ret [LA [Fin ((3 * K1 - G) / (6 * K1 + G)); Fin ((3 * K2 - G) / (6 * K2 + G))]]] /\
  run_arr m arr_utils_poi (map as_array args) =
    Ret [VA [Fin ((3 * K1 - 2 * G) / (6 * K1 + 2 * G)); Fin ((3 * K2 - 2 * G) / (6 * K2 + 2 * G))]] /\
  (3 * K1 - G) / (6 * K1 + G) > (3 * K1 - 2 * G) / (6 * K1 + 2 * G) /\
  (3 * K2 - G) / (6 * K2 + G) > (3 * K2 - 2 * G) / (6 * K2 + 2 * G) /\
  ~ same_as_arrays m arr_utils_poi args (lrun m int_utils_poi args).
Proof.
  intros m K1 K2 G H1 H2 H3 args.
  assert (D : forall K, 0 < K -> (3 * K - G) / (6 * K + G) > (3 * K - 2 * G) / (6 * K + 2 * G)).
  { intros K H.
    assert (E : ((3 * K - G) / (6 * K + G) - (3 * K - 2 * G) / (6 * K + 2 * G) = 9 * K * G / ((6 * K + G) * (6 * K + 2 * G)))%R) by (field; lra).
    assert (0 < (9 * K * G / ((6 * K + G) * (6 * K + 2 * G)))%R) by (apply Rdiv_lt_0_compat; nra). lra. }
  assert (E1 : lrun m int_utils_poi args = [Ret [LA [Fin ((3 * K1 - G) / (6 * K1 + G)); Fin ((3 * K2 - G) / (6 * K2 + G))]]]).
  { unfold args. cbn. change (Pos.to_nat 2) with 2%nat. cbn. repeat (destruct (Req_EM_T _ _); [exfalso; lra|]). reflexivity. }
  assert (E2 : run_arr m arr_utils_poi (map as_array args) =
    Ret [VA [Fin ((3 * K1 - 2 * G) / (6 * K1 + 2 * G)); Fin ((3 * K2 - 2 * G) / (6 * K2 + 2 * G))]]).
  { unfold args. cbn. repeat (destruct (Req_EM_T _ _); [exfalso; lra|]). reflexivity. }
  split; [exact E1|]. split; [exact E2|]. split; [apply D, H1|]. split; [apply D, H2|].
  intros S. rewrite E1 in S. specialize (S _ (or_introl eq_refl)). rewrite E2 in S. cbn [map as_array] in S.
  injection S as S1 S2. specialize (D K1 H1). lra.
Qed.
Print Assumptions C91_poi_refuted.

(** ** The hypotheses hold, and lists do get through *)
Ltac go := repeat (cbn; match goal with |- context [Req_EM_T ?a ?b] => destruct (Req_EM_T a b); [exfalso; lra|] end); cbn.
Example C91_nonvacuous_gassmann : forall m,
  let args := [LI 20; LL [#15; #16]; LI 37; LF false #2; LF false #(1/5)] in
  (forall v, In v args -> plain_python v) /\ exists K, In (Ret [LF false (Fin K); LL [#15; #16]]) (lrun m int_Fluid_Gassmann args).
Proof.
  intros m args. split; [intros v H; unfold args in H; repeat (destruct H as [<-|H]; [exact I|]); destruct H|].
  eexists. unfold args. go. left. reflexivity.
Qed.
Example C91_nonvacuous_no_lists : forall m,
  In (3%nat, int_utils_V) deaf_functions /\ a_text_of 3 int_utils_V int_utils_V /\
  never_returns (lrun m int_utils_V [LL [#36; #37]; LI 44; LF false #(265/100)]).
Proof.
  intros m. assert (T : In (3%nat, int_utils_V) deaf_functions) by (left; reflexivity).
  assert (W : a_text_of 3 int_utils_V int_utils_V) by (cbv; repeat split; reflexivity).
  split; [exact T|]. split; [exact W|]. refine (C91_no_lists m 3 int_utils_V int_utils_V [LL [#36; #37]; LI 44; LF false #(265/100)] (LL [#36; #37]) T eq_refl W _ (or_introl eq_refl) I).
  intros v H. repeat (destruct H as [<-|H]; [exact I|]). destruct H.
Qed.
(** A list next to an array is an array. *)
Example C91_nonvacuous_mixed : forall m,
  exists x y, lrun m int_utils_V [LL [#36; #37]; LA [#44; #45]; LF false #(265/100)] = [Ret [LA x; LA y]] /\
  run_arr m arr_utils_V [VA [#36; #37]; VA [#44; #45]; VS #(265/100)] = Ret [VA x; VA y].
Proof.
  intros m. do 2 eexists. split; [cbn; reflexivity|].
  refine (C91_mixed m 3 int_utils_V int_utils_V [LL [#36; #37]; LA [#44; #45]; LF false #(265/100)] _ eq_refl _ _ (or_introl eq_refl));
    [left; reflexivity|cbv; repeat split; reflexivity].
Qed.
