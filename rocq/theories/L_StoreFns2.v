(** * L_StoreFns2: [QI.cst_vels] with mutable arrays, and what an exception leaves behind. *)
From Verif Require Import Fl M_EM M_GM M_Fluid M_QI M_Array M_ArrayFns Spec16 L_Array L_ArrayFns P_Array M_Store Spec23 L_Store L_StoreFns.
Open Scope fl_scope.

Lemma oseq_nth {A B} (f : A -> outcome B) d d' : forall l rows, oseq f l = Ret rows ->
  length rows = length l /\ forall i, (i < length l)%nat -> f (nth i l d) = Ret (nth i rows d').
Proof.
  induction l as [|x l IH]; intros rows E; cbn [oseq] in E.
  - injection E as <-. split; [reflexivity|]. cbn. lia.
  - destruct (f x) as [y|e|] eqn:Ex; cbn [call] in E; try discriminate.
    destruct (oseq f l) as [r|e|]; cbn [call] in E; try discriminate. injection E as <-.
    destruct (IH r eq_refl) as [L H]. split; [cbn; congruence|]. intros [|i] Hi; cbn [nth length] in *; [exact Ex|]. apply H. lia.
Qed.
Lemma assign_beyond b : forall vs phis res, length vs = length phis -> length res = length phis ->
  (forall i, (i < length phis)%nat -> mask_gt (nth i phis Und) b (nth i vs Und) = Ret (nth i res Und)) ->
  assign vs (map (fun y => bit (fltb b y)) phis) (repeat NaN (length vs)) = Ret res.
Proof.
  induction vs as [|v vs IH]; intros [|p phis] [|r res] L1 L2 H; try discriminate; [reflexivity|].
  cbn [map length repeat assign]. rewrite (IH phis res); [|cbn in *; lia|cbn in *; lia|].
  - specialize (H 0%nat). cbn [nth length] in H. specialize (H ltac:(lia)). unfold mask_gt in H. cbn [call].
    destruct (fltb b p) as [[|]|]; cbn [bit]; try discriminate; destruct Req_EM_T; try lra; congruence.
  - intros i Hi. apply (H (S i)). cbn. lia.
Qed.
Lemma lines_ret m p h env out : in_store h env -> run_arr m p (map (look h) env) = Ret out ->
  exists h' vs, crun m (lines p) h env = (h', Ret vs) /\ same_arrays h h' /\ in_store h' vs /\ map (look h') vs = out.
Proof.
  intros I E. pose proof (lines_val m p h env I) as V. pose proof (lines_same m p h env) as S. rewrite E in V.
  destruct (crun m (lines p) h env) as [h' [vs|e|]]; simpl in V; try contradiction. exists h', vs. destruct V as [V1 V2]. auto.
Qed.

Section Cst.
Variables (m : mode) (scheme : Z) (cc : prog).
Hypothesis Hcc : (scheme = 1%Z /\ cc = arr_GM_constantcement_1) \/ (scheme = 2%Z /\ cc = arr_GM_constantcement_2).
Variables (h : store) (lp : nat) (phi_b K0 D0 G0 phi_c Cn Kc Gc Db Kb vsh Dsh Dqz Dc D : fl).
Let phis := nth lp h [].
Hypotheses (Hp : (lp < length h)%nat) (Xp : is_value (VA phis))
  (X1 : no_exc phi_b) (X2 : no_exc K0) (X3 : no_exc G0) (X4 : no_exc phi_c) (X5 : no_exc Cn) (X6 : no_exc Kc) (X7 : no_exc Gc)
  (X8 : no_exc Db) (X9 : no_exc Kb) (X10 : no_exc D).
Hypothesis HD : QI_den_matrix m vsh phi_c phi_b Dsh Dqz Dc = Ret D.

Lemma cc_elem i k g : (i < length phis)%nat ->
  run NumPy cc [phi_b; K0; G0; Kc; Gc; nth i phis Und; phi_c; Cn] = Ret [k; g] ->
  GM_constantcement NumPy phi_b K0 G0 Kc Gc (nth i phis Und) phi_c Cn scheme = Ret (k, g).
Proof.
  intros Hi E. assert (F : out2 (GM_constantcement NumPy phi_b K0 G0 Kc Gc (nth i phis Und) phi_c Cn scheme) = Ret [k; g]).
  { destruct Hcc as [[-> ->]|[-> ->]]; [rewrite GM_constantcement_1_arr|rewrite GM_constantcement_2_arr]; exact E. }
  unfold out2 in F. destruct (GM_constantcement _ _ _ _ _ _ _ _ _ _) as [[a b]|e|]; cbn [call] in F; try discriminate.
  cbn [rets] in F. destruct a, b; cbn [bind call] in F; congruence.
Qed.
Lemma vels_elem k g phi vp vs x : run NumPy arr_Fluid_vels [k; g; K0; D; Kb; Db; phi] = Ret [vp; vs; x] ->
  Fluid_vels NumPy k g K0 D Kb Db phi = Ret (vp, vs, x).
Proof.
  intros E. rewrite <- Fluid_vels_arr in E. unfold out3 in E.
  destruct (Fluid_vels NumPy k g K0 D Kb Db phi) as [[[a b] c]|e|]; cbn [call] in E; try discriminate.
  cbn [rets] in E. destruct a, b, c; cbn [bind call] in E; congruence.
Qed.

Lemma cst_contents rows :
  oseq (fun phi => QI_cst_vels m phi_b K0 D0 G0 phi phi_c Cn Kc Gc Db Kb scheme vsh Dsh Dqz Dc) phis = Ret rows ->
  contents (crun NumPy (code_cst_vels cc) h
    [RNum phi_b; RNum K0; RNum G0; RNum Kc; RNum Gc; RArr lp; RNum phi_c; RNum Cn; RNum D; RNum Kb; RNum Db])
  = Ret [VA (map fst rows); VA (map snd rows)].
Proof.
  intros E. destruct (oseq_nth _ Und (Und, Und) _ _ E) as [Lr Er].
  set (env := [RNum phi_b; RNum K0; RNum G0; RNum Kc; RNum Gc; RArr lp; RNum phi_c; RNum Cn; RNum D; RNum Kb; RNum Db]).
  set (n := length phis) in *.
  assert (I : in_store h env).
  { intros l Hl. simpl in Hl. repeat (destruct Hl as [Hl|Hl]; [try discriminate Hl; injection Hl as <-; auto|]). destruct Hl. }
  unfold code_cst_vels. rewrite step_call. cbn [map nth env]. fold env.
  set (env1 := [RNum phi_b; RNum K0; RNum G0; RNum Kc; RNum Gc; RArr lp; RNum phi_c; RNum Cn]).
  assert (I1 : in_store h env1).
  { intros l Hl. simpl in Hl. repeat (destruct Hl as [Hl|Hl]; [try discriminate Hl; injection Hl as <-; auto|]). destruct Hl. }
  assert (Scc : straight cc = true) by (destruct Hcc as [[_ ->]|[_ ->]]; reflexivity).
  assert (A1 : args_ok n (map (look h) env1)).
  { intros v Hv. cbn [map look env1] in Hv. fold phis in Hv. repeat (destruct Hv as [<-|Hv]; [split; [cbn; auto|auto]|]). destruct Hv. }
  assert (F1 : forall v, In v (map (look h) env1) -> full n v).
  { intros v Hv. cbn [map look env1] in Hv. fold phis in Hv. repeat (destruct Hv as [<-|Hv]; [cbn; auto|]). destruct Hv. }
  destruct (C79_arrays_elementwise cc n _ Scc A1) as (out & R1 & O1 & P1).
  destruct (C79_array_shapes NumPy cc n _ out Scc F1 R1) as [G1 K1].
  assert (Kc1 : map is_arr out = [true; true]) by (rewrite K1; destruct Hcc as [[_ ->]|[_ ->]]; reflexivity).
  destruct out as [|[?|ks] [|[?|gs] [|? ?]]]; try discriminate.
  assert (Lk : length ks = n) by (apply (G1 (VA ks)); left; auto).
  assert (Lg : length gs = n) by (apply (G1 (VA gs)); right; left; auto).
  destruct (lines_ret NumPy cc h env1 _ I1 R1) as (h1 & vs1 & -> & S1 & J1 & M1). cbn [next].
  destruct vs1 as [|r1 [|r2 [|? ?]]]; try discriminate. cbn [map] in M1. injection M1 as M1 M2.
  (* velocities *)
  rewrite step_call. cbn [map nth env app].
  set (env2 := [r1; r2; RNum K0; RNum D; RNum Kb; RNum Db; RArr lp]).
  assert (I2 : in_store h1 env2).
  { intros l Hl. simpl in Hl. destruct Hl as [Hl|[Hl|Hl]]; [apply J1; left; auto|apply J1; right; left; auto|].
    repeat (destruct Hl as [Hl|Hl]; [try discriminate Hl; injection Hl as <-; destruct S1; lia|]). destruct Hl. }
  assert (Ep1 : nth lp h1 [] = phis) by (apply S1; auto).
  assert (E2 : map (look h1) env2 = [VA ks; VA gs; VS K0; VS D; VS Kb; VS Db; VA phis]).
  { cbn [map env2]. rewrite M1, M2. cbn [look]. rewrite Ep1. reflexivity. }
  assert (A2 : args_ok n (map (look h1) env2)).
  { rewrite E2. intros v Hv. destruct Hv as [<-|[<-|Hv]]; [apply O1; left; auto|apply O1; right; left; auto|].
    repeat (destruct Hv as [<-|Hv]; [split; [cbn; auto|auto]|]). destruct Hv. }
  assert (F2 : forall v, In v (map (look h1) env2) -> full n v).
  { rewrite E2. intros v Hv. repeat (destruct Hv as [<-|Hv]; [cbn; auto|]). destruct Hv. }
  destruct (C79_arrays_elementwise arr_Fluid_vels n _ eq_refl A2) as (out & R2 & O2 & P2).
  destruct (C79_array_shapes NumPy arr_Fluid_vels n _ out eq_refl F2 R2) as [G2 K2].
  rewrite E2 in K2. cbv in K2. destruct out as [|[?|vps] [|[?|vss] [|[?|xs] [|? ?]]]]; try discriminate. clear K2.
  assert (Lvp : length vps = n) by (apply (G2 (VA vps)); left; auto).
  assert (Lvs : length vss = n) by (apply (G2 (VA vss)); right; left; auto).
  assert (Lx : length xs = n) by (apply (G2 (VA xs)); right; right; left; auto).
  pose proof (separate_sound NumPy 7 arr_Fluid_vels h1 env2 ltac:(vm_compute; reflexivity) eq_refl I2) as New.
  destruct (lines_ret NumPy arr_Fluid_vels h1 env2 _ I2 R2) as (h2 & vs2 & Er2 & S2 & J2 & M3).
  rewrite Er2 in New |- *. cbn [next].
  destruct vs2 as [|r3 [|r4 [|r5 [|? ?]]]]; try discriminate. cbn [map] in M3. injection M3 as M3 M4 M5.
  destruct r3 as [?|l3]; [discriminate|]. destruct r4 as [?|l4]; [discriminate|]. cbn [look] in M3, M4. injection M3 as M3. injection M4 as M4.
  destruct New as [New1 New2].
  assert (N34 : l3 <> l4). { intros ->. specialize (New2 0%nat 1%nat l4 eq_refl eq_refl). discriminate. }
  assert (B3 : (l3 < length h2)%nat) by (apply J2; left; auto). assert (B4 : (l4 < length h2)%nat) by (apply J2; right; left; auto).
  assert (Old : (length h1 <= l3 /\ length h1 <= l4)%nat).
  { split; [apply (New1 l3); left; auto|apply (New1 l4); right; left; auto]. }
  (* every sample *)
  assert (Q : forall i, (i < n)%nat -> mask_gt (nth i phis Und) phi_b (nth i vps Und) = Ret (nth i (map fst rows) Und) /\
                                       mask_gt (nth i phis Und) phi_b (nth i vss Und) = Ret (nth i (map snd rows) Und)).
  { intros i Hi. specialize (Er i Hi). unfold QI_cst_vels in Er. specialize (P1 i Hi). specialize (P2 i Hi).
    cbn [map look env1] in P1. fold phis in P1.
    rewrite E2 in P2. cbn [map] in P2.
    rewrite !(elem_full i n) in P1 by auto. cbn [elem] in P1. rewrite !(elem_full i n) in P2 by auto. cbn [elem] in P2.
    rewrite (cc_elem i _ _ Hi P1) in Er. cbn [call] in Er. rewrite HD in Er. cbn [call] in Er.
    rewrite (vels_elem _ _ _ _ _ _ P2) in Er. cbn [call] in Er.
    destruct (mask_gt (nth i phis Und) phi_b (nth i vps Und)) as [a|e|]; cbn [call] in Er; try discriminate.
    destruct (mask_gt (nth i phis Und) phi_b (nth i vss Und)) as [b|e|]; cbn [call] in Er; try discriminate.
    injection Er as Er.
    assert (N1 : nth i (map fst rows) Und = a) by (change Und with (fst (Und, Und)); rewrite map_nth, <- Er; reflexivity).
    assert (N2 : nth i (map snd rows) Und = b) by (change Und with (snd (Und, Und)); rewrite map_nth, <- Er; reflexivity).
    rewrite N1, N2. auto. }
  set (env3 := (env ++ [r1; r2]) ++ [RArr l3; RArr l4; r5]).
  change ([RNum phi_b; RNum K0; RNum G0; RNum Kc; RNum Gc; RArr lp; RNum phi_c; RNum Cn; RNum D; RNum Kb; RNum Db; r1; r2] ++ [RArr l3; RArr l4; r5])
    with env3.
  assert (I3 : in_store h2 env3).
  { apply in_store_app; [|exact J2]. eapply in_store_same; [exact S2|]. apply in_store_app; [|exact J1]. eapply in_store_same; eauto. }
  assert (Ep2 : nth lp h2 [] = phis). { rewrite (proj2 S2) by (destruct S1; lia). exact Ep1. }
  edestruct (step_set NumPy 13) as (h3 & S3 & ->); [exact I3|reflexivity|reflexivity| | |].
  { cbn [val_test ev_arr nth map env3 env app call look mask2 semc]. rewrite Ep2. reflexivity. }
  { rewrite M3. apply assign_beyond with (res := map fst rows); [lia|rewrite map_length; lia|]. intros i Hi. apply Q; auto. }
  set (h4 := update h3 l3 (map fst rows)).
  assert (B34 : (l3 < length h3 /\ l4 < length h3)%nat) by (destruct S3; lia).
  assert (I4 : in_store h4 env3).
  { intros l Hl. unfold h4. rewrite update_length. specialize (I3 l Hl). destruct S3; lia. }
  assert (Np : lp <> l3 /\ lp <> l4) by (destruct S1; lia).
  assert (Ep4 : nth lp h4 [] = phis).
  { unfold h4. rewrite update_other by tauto. rewrite (proj2 S3) by (destruct S1, S2; lia). exact Ep2. }
  assert (E4 : nth l4 h4 [] = vss). { unfold h4. rewrite update_other by auto. rewrite (proj2 S3) by auto. exact M4. }
  assert (E3 : nth l3 h4 [] = map fst rows). { unfold h4. apply update_same. tauto. }
  edestruct (step_set NumPy 14) as (h5 & S5 & ->); [exact I4|reflexivity|reflexivity| | |].
  { cbn [val_test ev_arr nth map env3 env app call look mask2 semc]. rewrite Ep4. reflexivity. }
  { rewrite E4. apply assign_beyond with (res := map snd rows); [lia|rewrite map_length; lia|]. intros i Hi. apply Q; auto. }
  rewrite step_ret2. cbn [contents map nth env3 env app look].
  assert (L4 : length h4 = length h3) by apply update_length.
  rewrite update_other by auto. rewrite (proj2 S5) by lia. rewrite E3. rewrite update_same by (destruct S5; lia). reflexivity.
Qed.
End Cst.

(** ** A call that raises does not take back what it has stored *)
Lemma step_set_raise m x t s p h env l new mask e : in_store h env -> nth x env (RNum Und) = RArr l ->
  val_rhs m (map (look h) env) (length (nth l h [])) s = Ret new -> val_test m (map (look h) env) t = Ret mask ->
  assign (nth l h []) mask new = Raise e -> exists h', same_arrays h h' /\ crun m (CSet x t s p) h env = (h', Raise e).
Proof.
  intros I E R T A. cbn [crun]. rewrite E. pose proof (crhs_val m h env (length (nth l h [])) s I) as V. rewrite R in V.
  pose proof (crhs_longer m h env (length (nth l h [])) s) as S.
  destruct (crhs m h env (length (nth l h [])) s) as [h1 [y|y|]]; simpl in V; try contradiction. unfold eql in V. subst y.
  assert (I1 : in_store h1 env) by (eapply in_store_same; eauto).
  pose proof (ctest_val m h1 env t I1) as V. rewrite (looks_same h h1), T in V by auto.
  pose proof (ctest_longer m h1 env t) as S1. simpl.
  destruct (ctest m h1 env t) as [h2 [y|y|]]; simpl in V; try contradiction. unfold eql in V. subst y. simpl.
  exists h2. assert (Q : same_arrays h h2) by (eapply same_trans; eauto). split; [exact Q|].
  assert (G : nth l h2 [] = nth l h []) by (apply Q; eapply in_store_nth; eauto).
  rewrite G, A. reflexivity.
Qed.
Lemma assign_misfit : forall old mask new, length mask = length new -> length old <> length mask -> assign old mask new = Raise IndexError.
Proof.
  induction old as [|x old IH]; intros [|b mask] [|y new] L N; cbn in *; try lia; try reflexivity.
  rewrite IH by lia. reflexivity.
Qed.
Lemma PQ_misfit h lk lg la Km Gm al :
  (lk < length h)%nat -> (lg < length h)%nat -> (la < length h)%nat ->
  nth la h [] = map Fin al -> length (nth lk h []) <> length al ->
  exists h', crun NumPy code_PQ_vectorize h [RNum Km; RNum Gm; RArr lk; RArr lg; RArr la] = (h', Raise IndexError) /\
             nth la h' [] = map Fin (EM_PQ_clobber DFloat al).
Proof.
  intros Rk Rg Ra Ea N. unfold code_PQ_vectorize.
  do 3 rewrite (step_empty _ _ _ _ _ lk) by reflexivity.
  rewrite !app_nth1 by (rewrite ?app_length; lia). rewrite !app_length. cbn [length app].
  set (e := repeat Und (length (nth lk h []))). set (h1 := ((h ++ [e]) ++ [e]) ++ [e]).
  assert (L1 : length h1 = (length h + 3)%nat) by (unfold h1; rewrite !app_length; simpl; lia).
  rewrite step_alias. cbn [app nth].
  set (env := [RNum Km; RNum Gm; RArr lk; RArr lg; RArr la; RArr (length h); RArr (length h + 1); RArr (length h + 1 + 1); RArr la]).
  assert (I1 : in_store h1 env).
  { intros l Hl. simpl in Hl. repeat (destruct Hl as [Hl|Hl]; [try discriminate Hl; injection Hl as <-; lia|]). destruct Hl. }
  assert (Ea1 : nth la h1 [] = map Fin al) by (unfold h1; rewrite !app_nth1 by (rewrite ?app_length; lia); exact Ea).
  assert (Et1 : nth (length h + 1 + 1) h1 [] = e).
  { unfold h1. rewrite app_nth2 by (rewrite !app_length; simpl; lia). rewrite !app_length. cbn [length].
    replace (length h + 1 + 1 - (length h + 1 + 1))%nat with 0%nat by lia. reflexivity. }
  edestruct (step_set NumPy 8) as (h2 & S2 & ->); [exact I1|reflexivity|reflexivity| | |].
  { cbn [val_test ev_arr nth map env app call look mask2 semc]. rewrite Ea1. reflexivity. }
  { rewrite Ea1. apply clobber_assign. }
  set (cl := EM_PQ_clobber DFloat al). set (h3 := update h2 la (map Fin cl)).
  assert (L3 : (length h1 <= length h3)%nat) by (unfold h3; rewrite update_length; apply S2).
  assert (I3 : in_store h3 env) by (intros l Hl; specialize (I1 l Hl); lia).
  assert (Ea3 : nth la h3 [] = map Fin cl) by (apply update_same; destruct S2; lia).
  assert (Et3 : nth (length h + 1 + 1) h3 [] = e).
  { unfold h3. rewrite update_other by lia. rewrite (proj2 S2) by lia. exact Et1. }
  assert (Lc : length cl = length al) by apply map_length.
  edestruct (step_set_raise NumPy 7) as (h4 & S4 & ->); [exact I3|reflexivity| | | |].
  { cbn [val_rhs nth map env look]. unfold arr_theta_oblate. cbn [ev_arr call nth map app1 app2 look]. rewrite Ea3. cbn [app1 app2 call].
    rewrite !map_map. repeat (rewrite !broadcast_map; cbn [call app2]). reflexivity. }
  { cbn [val_test ev_arr nth map env app call look mask2 semc]. rewrite Ea3. reflexivity. }
  { rewrite Et3. apply assign_misfit; rewrite ?map_length; unfold e; rewrite ?repeat_length; lia. }
  exists h4. split; [reflexivity|]. rewrite (proj2 S4) by lia. exact Ea3.
Qed.
