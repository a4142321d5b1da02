(** * L_StoreFns: the functions that assign in place compute what their models say. *)
From Verif Require Import Fl M_EM M_GM M_Emp M_Array M_ArrayFns Spec16 L_Array L_ArrayFns P_Array M_Store Spec23 L_Store.
From Verif Require L_Lists.
Open Scope fl_scope.

Lemma step_let m e p h env x : in_store h env -> ev_arr m (map (look h) env) e = Ret x ->
  exists h' v, same_arrays h h' /\ holds h' v x /\ crun m (CLet e p) h env = crun m p h' (env ++ [v]) /\
    (forall l, v = RArr l -> (exists j, e = EVar j) \/ (length h <= l)%nat).
Proof.
  intros I E. cbn [crun]. pose proof (cev_val m e h env I) as V. pose proof (cev_same m h env e) as S.
  pose proof (cev_new m h env e) as C. rewrite E in V.
  destruct (cev m h env e) as [h' [v|y|]]; simpl in V; try contradiction. exists h', v. split; [exact S|]. split; [exact V|].
  split; [reflexivity|]. intros l ->. destruct C as [(j & -> & _)|[_ C]]; [left; eauto|right; lia].
Qed.
Lemma step_sum m e p h env l : in_store h env -> ev_arr m (map (look h) env) e = Ret (VA l) ->
  exists h', same_arrays h h' /\ crun m (CSum e p) h env = crun m p h' (env ++ [RNum (fsum l)]).
Proof.
  intros I E. cbn [crun]. pose proof (cev_val m e h env I) as V. pose proof (cev_same m h env e) as S. rewrite E in V.
  destruct (cev m h env e) as [h' [v|y|]]; simpl in V; try contradiction. exists h'. split; [exact S|].
  destruct V as [_ V]. simpl. rewrite V. reflexivity.
Qed.
(** The mask and the elements to be stored, from the contents of the names. *)
Definition val_test (m : mode) (env : list val) (t : test) : outcome (list fl) :=
  match t with
  | TCmp c e1 e2 => call! v := ev_arr m env e1 in call! w := ev_arr m env e2 in mask2 c v w
  | TNan e => call! v := ev_arr m env e in match v with VA l => Ret (map nan_bit l) | VS _ => Unknown end
  end.
Definition val_rhs (m : mode) (env : list val) (n : nat) (s : rhs) : outcome (list fl) :=
  match s with
  | SExpr e => call! v := ev_arr m env e in Ret match v with VS x => repeat x n | VA l => l end
  | SNan => Ret (repeat NaN n)
  end.
Definition eql (h : store) (a b : list fl) : Prop := a = b.
Lemma crhs_val m h env n s : in_store h env -> agree h (crhs m h env n s) (val_rhs m (map (look h) env) n s) eql.
Proof.
  intros I. destruct s as [e|]; cbn [crhs val_rhs]; [|reflexivity].
  pose proof (cev_val m e h env I) as V.
  destruct (cev m h env e) as [h' [v|y|]], (ev_arr m (map (look h) env) e) as [a|y'|]; simpl in V |- *; try contradiction; auto.
  destruct V as [_ ->]. reflexivity.
Qed.
Lemma ctest_val m h env t : in_store h env -> agree h (ctest m h env t) (val_test m (map (look h) env) t) eql.
Proof.
  intros I. destruct t as [c e1 e2|e]; cbn [ctest val_test].
  - pose proof (cev_val m e1 h env I) as V. pose proof (cev_same m h env e1) as S.
    destruct (cev m h env e1) as [h' [v|y|]], (ev_arr m (map (look h) env) e1) as [a|y'|]; simpl in V |- *; try contradiction; auto.
    assert (I1 : in_store h' env) by (eapply in_store_same; eauto).
    pose proof (cev_val m e2 h' env I1) as V2. pose proof (cev_same m h' env e2) as S2. rewrite (looks_same h h') in V2 by auto.
    destruct (cev m h' env e2) as [h2 [w|y|]], (ev_arr m (map (look h) env) e2) as [b|y'|]; simpl in V2 |- *; try contradiction; auto.
    apply (holds_same _ h2) in V; auto. destruct V as [_ ->], V2 as [_ ->]. destruct mask2; simpl; auto. reflexivity.
  - pose proof (cev_val m e h env I) as V.
    destruct (cev m h env e) as [h' [v|y|]], (ev_arr m (map (look h) env) e) as [a|y'|]; simpl in V |- *; try contradiction; auto.
    destruct V as [_ ->]. destruct a; simpl; auto. reflexivity.
Qed.
Lemma step_set m x t s p h env l mask new a : in_store h env -> nth x env (RNum Und) = RArr l ->
  val_rhs m (map (look h) env) (length (nth l h [])) s = Ret new -> val_test m (map (look h) env) t = Ret mask ->
  assign (nth l h []) mask new = Ret a ->
  exists h', same_arrays h h' /\ crun m (CSet x t s p) h env = crun m p (update h' l a) env.
Proof.
  intros I E R T A. cbn [crun]. rewrite E. pose proof (crhs_val m h env (length (nth l h [])) s I) as V. rewrite R in V.
  pose proof (crhs_longer m h env (length (nth l h [])) s) as S.
  destruct (crhs m h env (length (nth l h [])) s) as [h1 [y|y|]]; simpl in V; try contradiction. unfold eql in V. subst y.
  assert (I1 : in_store h1 env) by (eapply in_store_same; eauto).
  pose proof (ctest_val m h1 env t I1) as V. rewrite (looks_same h h1), T in V by auto.
  pose proof (ctest_longer m h1 env t) as S1. simpl.
  destruct (ctest m h1 env t) as [h2 [y|y|]]; simpl in V; try contradiction. unfold eql in V. subst y. simpl.
  exists h2. split; [eapply same_trans; eauto|].
  assert (G : nth l h2 [] = nth l h []).
  { destruct (same_trans _ _ _ S S1) as [_ G]. apply G. eapply in_store_nth; eauto. }
  rewrite G, A. reflexivity.
Qed.
Lemma step_set_unknown m x t s p h env l : in_store h env -> nth x env (RNum Und) = RArr l -> forall new mask,
  val_rhs m (map (look h) env) (length (nth l h [])) s = Ret new -> val_test m (map (look h) env) t = Ret mask ->
  assign (nth l h []) mask new = Unknown -> snd (crun m (CSet x t s p) h env) = Unknown.
Proof.
  intros I E new mask R T A. cbn [crun]. rewrite E. pose proof (crhs_val m h env (length (nth l h [])) s I) as V. rewrite R in V.
  pose proof (crhs_longer m h env (length (nth l h [])) s) as S.
  destruct (crhs m h env (length (nth l h [])) s) as [h1 [y|y|]]; simpl in V; try contradiction. unfold eql in V. subst y.
  assert (I1 : in_store h1 env) by (eapply in_store_same; eauto).
  pose proof (ctest_val m h1 env t I1) as V. rewrite (looks_same h h1), T in V by auto.
  pose proof (ctest_longer m h1 env t) as S1. simpl.
  destruct (ctest m h1 env t) as [h2 [y|y|]]; simpl in V; try contradiction. unfold eql in V. subst y. simpl.
  assert (G : nth l h2 [] = nth l h []).
  { destruct (same_trans _ _ _ S S1) as [_ G]. apply G. eapply in_store_nth; eauto. }
  rewrite G, A. reflexivity.
Qed.

(** ** GM.diluting *)
Definition known (x : fl) : Prop := match x with Fin _ | Inf | NaN => True | _ => False end.
Lemma assign_nan l : Forall known l -> assign l (map nan_bit l) (repeat #0 (length l)) = Ret (map fnan0 l).
Proof.
  induction 1 as [|x l Hx H IH]; [reflexivity|]. simpl. rewrite IH. simpl.
  destruct x; simpl in *; try contradiction; destruct Req_EM_T; try lra; reflexivity.
Qed.
Lemma diluting_contents h l k s0 m_ : (l < length h)%nat ->
  (forall s, In s (nth l h []) -> known (k * fpow NumPy (#1 - s /n s0) m_)) ->
  contents (crun NumPy code_diluting h [RNum k; RNum s0; RArr l; RNum m_]) =
  call! a := GM_diluting NumPy k s0 (SArray (nth l h [])) m_ in Ret [VA a].
Proof.
  intros Hl K. set (xs := nth l h []) in *. set (env := [RNum k; RNum s0; RArr l; RNum m_]). unfold code_diluting.
  assert (I : in_store h env) by (intros j Hj; repeat (destruct Hj as [Hj|Hj]; [try discriminate; injection Hj as <-; auto|]); destruct Hj).
  set (ys := map (fun s => k * fpow NumPy (#1 - s /n s0) m_) xs).
  edestruct (step_let NumPy) as (h1 & v & S1 & Hv & -> & F1); [exact I| |].
  { instantiate (1 := VA ys). simpl. unfold xs in ys. unfold ys. rewrite !map_map. reflexivity. }
  destruct Hv as [Iv Ev]. destruct v as [z|l1]; simpl in Ev; [discriminate|]. injection Ev as Ev.
  destruct (F1 l1 eq_refl) as [(j & [=])|L1].
  assert (I1 : in_store h1 (env ++ [RArr l1])) by (apply in_store_app; auto; eapply in_store_same; eauto).
  assert (Hl1 : (l1 < length h1)%nat) by (apply Iv; left; auto).
  edestruct (step_set NumPy 4) as (h2 & S2 & ->); [exact I1|reflexivity| | | |].
  - simpl. reflexivity.
  - simpl. rewrite Ev. reflexivity.
  - rewrite Ev. apply assign_nan. apply Forall_forall. intros y Hy. unfold ys in Hy. apply in_map_iff in Hy as (s & <- & Hs). auto.
  - simpl. rewrite update_same by (destruct S2; lia). unfold ys. rewrite map_map. reflexivity.
Qed.

(** ** Empirical.ramm_porosity_segment *)
Lemma ramm_total xs : Emp_ramm_porosity_segment xs = Unknown \/ exists r, Emp_ramm_porosity_segment xs = Ret r.
Proof.
  induction xs as [|z l IH]; simpl; [eauto|]. unfold Emp_ramm_segment_elem. destruct (fltb _ _) as [[|]|]; simpl; auto;
    destruct IH as [->|[r ->]]; simpl; eauto.
Qed.
Lemma ramm_assign xs :
  let p1 := map (fun z => #45 * fexp (#(- (25/100000)) * z)) xs in
  let p2 := map (fun z => #25 - #(13/1000) * (z - #2500)) xs in
  assign p1 (map2 (fun x y => bit (fltb x y)) p2 p1) p2 = Emp_ramm_porosity_segment xs.
Proof.
  induction xs as [|x xs IH]; [reflexivity|]. cbn [map map2 assign Emp_ramm_porosity_segment]. unfold Emp_ramm_segment_elem. cbv zeta in IH. rewrite IH.
  destruct (fltb _ _) as [[|]|]; simpl.
  - destruct Emp_ramm_porosity_segment; simpl; auto. destruct Req_EM_T; [lra|reflexivity].
  - destruct Emp_ramm_porosity_segment; simpl; auto. destruct Req_EM_T; [reflexivity|lra].
  - destruct (ramm_total xs) as [->|[r ->]]; reflexivity.
Qed.
Lemma ramm_contents h l : (l < length h)%nat ->
  contents (crun NumPy code_ramm_segment h [RArr l]) = call! a := Emp_ramm_porosity_segment (nth l h []) in Ret [VA a].
Proof.
  intros Hl. set (xs := nth l h []) in *. set (env := [RArr l]). unfold code_ramm_segment.
  assert (I : in_store h env) by (intros j [[= <-]|[]]; auto).
  pose proof (ramm_assign xs) as RA. cbv zeta in RA.
  set (p1 := map (fun z => #45 * fexp (#(- (25/100000)) * z)) xs) in *. set (p2 := map (fun z => #25 - #(13/1000) * (z - #2500)) xs) in *.
  edestruct (step_let NumPy) as (h1 & v & S1 & Hv & -> & F1); [exact I| |].
  { instantiate (1 := VA p1). simpl. unfold xs in p1. unfold p1. rewrite !map_map. reflexivity. }
  destruct Hv as [Iv Ev]. destruct v as [z|l1]; simpl in Ev; [discriminate|]. injection Ev as Ev.
  destruct (F1 l1 eq_refl) as [(j & [=])|L1].
  assert (I1 : in_store h1 (env ++ [RArr l1])) by (apply in_store_app; auto; eapply in_store_same; eauto).
  assert (Hl1 : (l1 < length h1)%nat) by (apply Iv; left; auto).
  edestruct (step_let NumPy) as (h2 & v & S2 & Hv & -> & F2); [exact I1| |].
  { instantiate (1 := VA p2). simpl. rewrite (proj2 S1) by auto. unfold xs in p2. unfold p2. rewrite !map_map. reflexivity. }
  destruct Hv as [Iv2 Ev2]. destruct v as [z|l2]; simpl in Ev2; [discriminate|]. injection Ev2 as Ev2.
  destruct (F2 l2 eq_refl) as [(j & [=])|L2].
  assert (I2 : in_store h2 (env ++ [RArr l1; RArr l2])).
  { change (env ++ [RArr l1; RArr l2]) with ((env ++ [RArr l1]) ++ [RArr l2]). apply in_store_app; auto. eapply in_store_same; eauto. }
  assert (Ev1 : nth l1 h2 [] = p1) by (rewrite (proj2 S2); auto).
  assert (Ep : length p1 = length p2) by (unfold p1, p2; rewrite !map_length; auto).
  assert (B : broadcast (fun x y => bit (fltb x y)) p2 p1 = Ret (map2 (fun x y => bit (fltb x y)) p2 p1)).
  { unfold broadcast. rewrite Ep, Nat.eqb_refl. reflexivity. }
  cbn [app env]. change ([RArr l; RArr l1] ++ [RArr l2]) with [RArr l; RArr l1; RArr l2].
  destruct (Emp_ramm_porosity_segment xs) as [a|e|] eqn:Er.
  - edestruct (step_set NumPy 1) as (h3 & S3 & ->); [exact I2|reflexivity| | | |].
    + simpl. rewrite Ev2. reflexivity.
    + simpl. rewrite Ev1, Ev2. exact B.
    + rewrite Ev1. exact RA.
    + simpl. rewrite update_same by (destruct S2, S3; lia). reflexivity.
  - exfalso. destruct (ramm_total xs) as [G|[r G]]; congruence.
  - unfold contents. assert (U : snd (crun NumPy (CSet 1 (TCmp CLt (EVar 2) (EVar 1)) (SExpr (EVar 2)) (CRet [EVar 1])) h2
      [RArr l; RArr l1; RArr l2]) = Unknown).
    { eapply step_set_unknown; [exact I2|reflexivity| | |].
      - simpl. rewrite Ev2. reflexivity.
      - simpl. rewrite Ev1, Ev2. exact B.
      - rewrite Ev1. exact RA. }
    destruct crun as [h3 r]. simpl in U. subst r. reflexivity.
Qed.

(** ** EM.PQ_vectorize *)
Lemma step_empty m x p h env l : nth x env (RNum Und) = RArr l ->
  crun m (CEmpty x p) h env = crun m p (h ++ [repeat Und (length (nth l h []))]) (env ++ [RArr (length h)]).
Proof. intros E. cbn [crun]. rewrite E. reflexivity. Qed.
Lemma step_alias m n p h env : crun m (CLet (EVar n) p) h env = crun m p h (env ++ [nth n env (RNum Und)]).
Proof. reflexivity. Qed.
Lemma step_call m f args p h env : crun m (CCall f args p) h env =
  next (crun m f h (map (fun k => nth k env (RNum Und)) args)) (fun h vs => crun m p h (env ++ vs)).
Proof. reflexivity. Qed.
Lemma step_ret2 m i j h env : crun m (CRet [EVar i; EVar j]) h env = (h, Ret [nth i env (RNum Und); nth j env (RNum Und)]).
Proof. reflexivity. Qed.
Lemma broadcast_map {A} f (g g' : A -> fl) l : broadcast f (map g l) (map g' l) = Ret (map (fun x => f (g x) (g' x)) l).
Proof.
  unfold broadcast. rewrite !map_length, Nat.eqb_refl. f_equal. induction l as [|x l IH]; simpl; congruence.
Qed.
Lemma EM_PQ_spheroid_arr Km Gm Ki Gi a th :
  out2 (EM_PQ_spheroid (fdiv NumPy) Km Gm Ki Gi a th) = run NumPy arr_EM_PQ_spheroid [Km; Gm; Ki; Gi; a; th].
Proof. unfold out2, EM_PQ_spheroid, arr_EM_PQ_spheroid. fn. Qed.
Lemma clobber_assign al :
  assign (map Fin al) (map (fun x => bit (feqb x #1)) (map Fin al)) (repeat #0.999 (length (map Fin al))) =
  Ret (map Fin (EM_PQ_clobber DFloat al)).
Proof.
  induction al as [|a al IH]; [reflexivity|]. cbn [map length repeat assign]. rewrite IH. unfold feqb, fcmp, Reqb, bit.
  cbn [call EM_PQ_clobber map]. destruct (Req_EM_T a 1); destruct Req_EM_T; try lra; reflexivity.
Qed.
Lemma clobber_not_one al a : In a (EM_PQ_clobber DFloat al) -> a <> 1%R.
Proof. intros H. apply in_map_iff in H as (b & <- & _). destruct Req_EM_T; lra. Qed.
Lemma unset_assign (l : list fl) al : length l = length al -> ~ In 1%R al -> forall new, length new = length al ->
  assign l (map (fun x => bit (feqb x #1)) (map Fin al)) new = Ret l.
Proof.
  revert l. induction al as [|a al IH]; intros [|x l] E H [|y new] E2; try discriminate; [reflexivity|].
  cbn [map assign]. rewrite IH; simpl in *; auto; try tauto. unfold feqb, fcmp, Reqb, bit.
  destruct (Req_EM_T a 1) as [->|N]; [tauto|]. simpl. destruct Req_EM_T; [reflexivity|lra].
Qed.
Definition theta1 (a : R) : fl := if Rlt_dec a 1 then EM_theta_oblate NumPy (Fin a) else Und.
Definition theta2 (a : R) : fl :=
  if Rlt_dec a 1 then EM_theta_oblate NumPy (Fin a) else if Rlt_dec 1 a then EM_theta_prolate NumPy (Fin a) else Und.
Lemma oblate_assign al :
  assign (repeat Und (length al)) (map (fun x => bit (fltb x #1)) (map Fin al)) (map (fun a => EM_theta_oblate NumPy (Fin a)) al)
  = Ret (map theta1 al).
Proof.
  induction al as [|a al IH]; [reflexivity|]. cbn [map length repeat assign]. rewrite IH. unfold fltb, fcmp, Rltb, bit, theta1.
  cbn [call]. destruct (Rlt_dec a 1); destruct Req_EM_T; try lra; reflexivity.
Qed.
Lemma prolate_assign al :
  assign (map theta1 al) (map (fun x => bit (fltb #1 x)) (map Fin al)) (map (fun a => EM_theta_prolate NumPy (Fin a)) al)
  = Ret (map theta2 al).
Proof.
  induction al as [|a al IH]; [reflexivity|]. cbn [map assign]. rewrite IH. unfold fltb, fcmp, Rltb, bit, theta1, theta2.
  cbn [call]. destruct (Rlt_dec 1 a), (Rlt_dec a 1); destruct Req_EM_T; try lra; reflexivity.
Qed.
Lemma theta2_no_exc a : no_exc (theta2 a).
Proof.
  unfold theta2, EM_theta_oblate, EM_theta_prolate.
  destruct (Rlt_dec a 1); [|destruct (Rlt_dec 1 a)]; [| |exact I];
    repeat first [ apply (sem2_no_exc OMul) | apply (sem2_no_exc ODivN) | apply (sem2_no_exc OPowN) | apply (sem2_no_exc OSub)
                 | apply (sem1_no_exc OArccos) | apply (sem1_no_exc OSqrt) | apply (sem1_no_exc OCosh) | apply (sem1_no_exc (OPown 2))
                 | exact I ].
Qed.
(** The elements of the vectorised result, from those of the spheroid formula. *)
Lemma PQ_elems_nth e Km Gm : forall Ki Gi al P Q, length Ki = length al -> length Gi = length al -> length P = length al -> length Q = length al ->
  (forall i, (i < length al)%nat -> EM_PQ_elem Km Gm (nth i Ki Und) (nth i Gi Und) (nth i al 0%R) = Ret (nth i P Und, nth i Q Und)) ->
  EM_PQ_elems e Km Gm Ki Gi al = Ret (P, Q).
Proof.
  intros Ki Gi al. revert Ki Gi. induction al as [|a al IH]; intros [|k Ki] [|g Gi] [|p P] [|q Q] L1 L2 L3 L4 H; try discriminate; [reflexivity|].
  cbn [EM_PQ_elems]. pose proof (H 0%nat) as H0. simpl in H0. rewrite H0 by lia. cbn [call].
  rewrite (IH Ki Gi P Q); simpl in *; auto; try lia. intros i Hi. apply (H (S i)). lia.
Qed.

Lemma num_ok x : no_exc x -> num x = Ret (VS x).
Proof. destruct x; simpl; auto; contradiction. Qed.
Ltac noexc :=
  repeat first [ assumption | exact I | apply (sem2_no_exc OAdd) | apply (sem2_no_exc OMul) | apply (sem2_no_exc ODivN) ].
Ltac nums := repeat (rewrite num_ok by noexc; cbn [call app2 app1]).
Section PQ.
Variables (h0 : store) (lk lg la : nat) (Km Gm : fl) (Ki Gi : list fl) (al : list R).
Hypothesis (Rk : (lk < length h0)%nat) (Rg : (lg < length h0)%nat) (Ra : (la < length h0)%nat).
Hypothesis (Nk : lk <> la) (Ng : lg <> la).
Hypothesis (Ek : nth lk h0 [] = Ki) (Eg : nth lg h0 [] = Gi) (Ea : nth la h0 [] = map Fin al).
Hypothesis (Lk : length Ki = length al) (Lg : length Gi = length al).
Hypothesis (Xk : forall x, In x Ki -> no_exc x) (Xg : forall x, In x Gi -> no_exc x) (XK : no_exc Km) (XG : no_exc Gm).
Let n0 := length h0.
Let lt := S (S n0).
Let env9 : names := [RNum Km; RNum Gm; RArr lk; RArr lg; RArr la; RArr n0; RArr (S n0); RArr lt; RArr la].
Let cl := EM_PQ_clobber DFloat al.
Definition st (h : store) (a : list R) (th : list fl) : Prop :=
  (lt < length h)%nat /\ nth lk h [] = Ki /\ nth lg h [] = Gi /\ nth la h [] = map Fin a /\ nth lt h [] = th.
Lemma st_same h h' a th : same_arrays h h' -> st h a th -> st h' a th.
Proof.
  intros [L E] (H1 & H2 & H3 & H4 & H5). unfold lt, n0 in *. repeat split; [lia|..]; rewrite E by lia; auto.
Qed.
Lemma st_in h a th : st h a th -> in_store h env9.
Proof.
  intros (H1 & _) l Hl. unfold env9, lt, n0 in *. simpl in Hl. unfold store in *.
  repeat (destruct Hl as [Hl|Hl]; [try discriminate Hl; injection Hl as <-; lia|]); destruct Hl.
Qed.
Lemma st_looks h a th : st h a th -> exists u w, map (look h) env9 =
  [VS Km; VS Gm; VA Ki; VA Gi; VA (map Fin a); u; w; VA th; VA (map Fin a)].
Proof.
  intros (H1 & H2 & H3 & H4 & H5). unfold env9. simpl. rewrite H2, H3, H4, H5. eauto.
Qed.
Lemma st_alpha h a th a' : st h a th -> st (update h la (map Fin a')) a' th.
Proof.
  intros (H1 & H2 & H3 & H4 & H5). unfold st, lt, n0 in *. split; [rewrite update_length; auto|].
  rewrite update_same by lia. rewrite !update_other by (auto; lia). auto.
Qed.
Lemma st_theta h a th th' : st h a th -> st (update h lt th') a th'.
Proof.
  intros (H1 & H2 & H3 & H4 & H5). unfold st, lt, n0 in *. split; [rewrite update_length; auto|].
  rewrite update_same by lia. rewrite !update_other by (auto; lia). auto.
Qed.
Lemma PQ_run : exists P Q,
  EM_PQ_vectorize DFloat Km Gm Ki Gi al = Ret ((P, Q), cl) /\
  contents (crun NumPy code_PQ_vectorize h0 [RNum Km; RNum Gm; RArr lk; RArr lg; RArr la]) = Ret [VA P; VA Q] /\
  nth la (fst (crun NumPy code_PQ_vectorize h0 [RNum Km; RNum Gm; RArr lk; RArr lg; RArr la])) [] = map Fin cl /\
  length P = length al /\ length Q = length al /\ (forall x, In x P -> no_exc x) /\ (forall x, In x Q -> no_exc x).
Proof.
  unfold code_PQ_vectorize.
  do 3 rewrite (step_empty _ _ _ _ _ lk) by reflexivity.
  rewrite !app_nth1 by (rewrite ?app_length; lia). rewrite Ek, Lk, !app_length. cbn [length app].
  set (e := repeat Und (length al)). set (h1 := ((h0 ++ [e]) ++ [e]) ++ [e]).
  replace (length h0 + 1)%nat with (S n0) by (unfold n0; lia). replace (S n0 + 1)%nat with lt by (unfold lt; lia). fold n0.
  assert (S1 : st h1 al e).
  { unfold st, h1. split; [rewrite !app_length; simpl; unfold lt, n0; lia|].
    rewrite !app_nth1 by (rewrite ?app_length; lia). repeat split; auto.
    rewrite app_nth2 by (rewrite !app_length; simpl; unfold lt, n0; lia). rewrite !app_length. cbn [length].
    replace (lt - (length h0 + 1 + 1))%nat with 0%nat by (unfold lt, n0; lia). reflexivity. }
  rewrite step_alias. cbn [app nth]. fold env9.
  (* alpha_[alpha==1]=0.999 *)
  destruct (st_looks _ _ _ S1) as (u & w & E1).
  edestruct (step_set NumPy 8) as (h2 & G2 & ->); [eapply st_in; eauto|reflexivity| | | |].
  { rewrite E1. reflexivity. } { rewrite E1. reflexivity. }
  { replace (nth la h1 []) with (map Fin al) by (symmetry; apply S1). apply clobber_assign. }
  fold cl. assert (S2 : st (update h2 la (map Fin cl)) cl e) by (eapply st_alpha, st_same; eauto). clear S1 E1.
  set (k2 := update h2 la (map Fin cl)) in *. clearbody k2 h1. clear h2 G2 u w.
  assert (Lc : length cl = length al) by apply map_length.
  assert (Le : e = repeat Und (length cl)) by (rewrite Lc; auto).
  (* theta of the oblate *)
  destruct (st_looks _ _ _ S2) as (u & w & E2).
  edestruct (step_set NumPy 7) as (h3 & G3 & ->); [eapply st_in; eauto|reflexivity| | | |].
  { rewrite E2. unfold arr_theta_oblate. cbn [val_rhs ev_arr nth call app2 app1]. rewrite !map_map. cbn [call app2 app1].
    rewrite ?map_map, ?broadcast_map. cbn [call app2 app1]. rewrite ?map_map, ?broadcast_map. cbn [call app2 app1].
    rewrite ?map_map, ?broadcast_map. cbn [call app2 app1]. reflexivity. }
  { rewrite E2. reflexivity. }
  { replace (nth lt k2 []) with e by (symmetry; apply S2). rewrite Le. apply oblate_assign. }
  assert (S3 : st (update h3 lt (map theta1 cl)) cl (map theta1 cl)) by (eapply st_theta, st_same; eauto). clear S2 E2.
  set (k3 := update h3 lt (map theta1 cl)) in *. clearbody k3. clear h3 G3 u w.
  (* theta of the prolate *)
  destruct (st_looks _ _ _ S3) as (u & w & E3).
  edestruct (step_set NumPy 7) as (h4 & G4 & ->); [eapply st_in; eauto|reflexivity| | | |].
  { rewrite E3. unfold arr_theta_prolate. cbn [val_rhs ev_arr nth call app2 app1]. rewrite !map_map. cbn [call app2 app1].
    rewrite ?map_map, ?broadcast_map. cbn [call app2 app1]. rewrite ?map_map, ?broadcast_map. cbn [call app2 app1].
    rewrite ?map_map, ?broadcast_map. cbn [call app2 app1]. reflexivity. }
  { rewrite E3. reflexivity. }
  { replace (nth lt k3 []) with (map theta1 cl) by (symmetry; apply S3). apply prolate_assign. }
  assert (S4 : st (update h4 lt (map theta2 cl)) cl (map theta2 cl)) by (eapply st_theta, st_same; eauto). clear S3 E3.
  set (k4 := update h4 lt (map theta2 cl)) in *. clearbody k4. clear h4 G4 u w.
  (* P, Q of the spheroid *)
  destruct (st_looks _ _ _ S4) as (u & w & E4). rewrite step_call.
  set (args := map (fun k => nth k env9 (RNum Und)) [0; 1; 2; 3; 8; 7]%nat).
  assert (Ia : in_store k4 args).
  { intros l Hl. apply in_map_iff in Hl as (k & Hk & _). eapply in_store_nth; [eapply st_in; eauto|eauto]. }
  assert (Va : map (look k4) args = [VS Km; VS Gm; VA Ki; VA Gi; VA (map Fin cl); VA (map theta2 cl)]).
  { unfold args. rewrite map_map. cbn [map]. rewrite !look_nth, E4. reflexivity. }
  pose proof (lines_val NumPy arr_EM_PQ_spheroid k4 args Ia) as V. pose proof (lines_same NumPy arr_EM_PQ_spheroid k4 args) as G5.
  pose proof (separate_sound NumPy 6 arr_EM_PQ_spheroid k4 args eq_refl eq_refl Ia) as New. rewrite Va in V.
  assert (Ok : args_ok (length al) [VS Km; VS Gm; VA Ki; VA Gi; VA (map Fin cl); VA (map theta2 cl)]).
  { intros v Hv. simpl in Hv. repeat destruct Hv as [<-|Hv]; try contradiction; simpl; rewrite ?map_length, ?Lc; auto; split; auto.
    - intros x Hx. apply in_map_iff in Hx as (r & <- & _). exact I.
    - intros x Hx. apply in_map_iff in Hx as (r & <- & _). apply theta2_no_exc. }
  destruct (C79_arrays_elementwise arr_EM_PQ_spheroid (length al) _ eq_refl Ok) as (out & Er & Oo & El).
  assert (Sh := C79_array_shapes NumPy arr_EM_PQ_spheroid (length al)
    [VS Km; VS Gm; VA Ki; VA Gi; VA (map Fin cl); VA (map theta2 cl)] out eq_refl).
  destruct Sh as [Sh Kd]; [|exact Er|].
  { intros v Hv. simpl in Hv. repeat destruct Hv as [<-|Hv]; try contradiction; simpl; rewrite ?map_length, ?Lc; auto. }
  change (kinds arr_EM_PQ_spheroid _) with [true; true] in Kd.
  destruct out as [|[?|P] [|[?|Q] [|? ?]]]; simpl in Kd; try discriminate.
  assert (LP : length P = length al) by (apply (Sh (VA P)); simpl; auto).
  assert (LQ : length Q = length al) by (apply (Sh (VA Q)); simpl; auto). clear Sh Kd.
  rewrite Er in V. destruct (crun NumPy (lines arr_EM_PQ_spheroid) k4 args) as [k5 [vs|x|]]; simpl in V; try contradiction.
  destruct V as [Iv Ev]. destruct vs as [|v1 [|v2 [|? ?]]]; simpl in Ev; try discriminate. injection Ev as Ev1 Ev2.
  destruct v1 as [?|lp]; simpl in Ev1; [discriminate|]. destruct v2 as [?|lq]; simpl in Ev2; [discriminate|].
  injection Ev1 as Ev1. injection Ev2 as Ev2. simpl in G5. simpl in New. destruct New as [New1 New2].
  assert (Rp := New1 lp (or_introl eq_refl)). assert (Rq := New1 lq (or_intror (or_introl eq_refl))).
  assert (Npq : lp <> lq).
  { intros ->. specialize (New2 0%nat 1%nat lq eq_refl eq_refl). discriminate. }
  clear New1 New2. pose proof (st_same _ _ _ _ G5 S4) as S5. cbn [next].
  assert (Rt : (lt < length k4)%nat) by apply S4.
  (* P[alpha==1]: nothing *)
  assert (N1 : ~ In 1%R cl) by (intros H; apply (clobber_not_one al) in H; lra).
  assert (I5 : in_store k5 (env9 ++ [RArr lp; RArr lq])).
  { apply in_store_app; [eapply st_in; eauto|]. intros l [[= <-]|[[= <-]|[]]]; lia. }
  destruct (st_looks _ _ _ S5) as (u5 & w5 & E5).
  edestruct (step_set NumPy 9) as (h6 & G6 & ->); [exact I5|reflexivity| | | |].
  { rewrite map_app, E5. cbn [val_rhs ev_arr nth call app2 app1 app]. nums. rewrite map_map. reflexivity. }
  { rewrite map_app, E5. reflexivity. }
  { rewrite Ev1. apply unset_assign; [lia|auto|]. rewrite map_length. lia. }
  assert (S6 : st (update h6 lp P) cl (map theta2 cl)).
  { pose proof (st_same _ _ _ _ G6 S5) as (H1 & H2 & H3 & H4 & H5). unfold st, lt, n0 in *. split; [rewrite update_length; auto|].
    rewrite !update_other by lia. auto. }
  set (k6 := update h6 lp P) in *.
  assert (Bp : (lp < length k6)%nat /\ nth lp k6 [] = P).
  { unfold k6. rewrite update_length. destruct G6. split; [lia|]. apply update_same. lia. }
  assert (Bq : (lq < length k6)%nat /\ nth lq k6 [] = Q).
  { unfold k6. rewrite update_length. destruct G6 as [G6 G6']. split; [lia|]. rewrite update_other by auto. rewrite G6' by lia. auto. }
  clearbody k6. clear h6 G6.
  (* kesai *)
  assert (I6 : in_store k6 (env9 ++ [RArr lp; RArr lq])).
  { apply in_store_app; [eapply st_in; eauto|]. intros l [[= <-]|[[= <-]|[]]]; tauto. }
  destruct (st_looks _ _ _ S6) as (u6 & w6 & E6).
  set (kesai := Gm /n #6 * (#9 * Km + #8 * Gm) /n (Km + #2 * Gm)).
  assert (Xe : no_exc kesai) by (unfold kesai; noexc).
  edestruct (step_let NumPy) as (k7 & v & G7 & Hv & -> & F7); [exact I6| |].
  { instantiate (1 := VS kesai). rewrite map_app, E6. cbn [ev_arr nth call app2 app1 app]. nums. reflexivity. }
  destruct Hv as [_ Hv]. destruct v as [x|?]; simpl in Hv; [|discriminate]. injection Hv as ->. clear F7.
  pose proof (st_same _ _ _ _ G7 S6) as S7. destruct (st_looks _ _ _ S7) as (u7 & w7 & E7).
  destruct Bp as [Bp Bp'], Bq as [Bq Bq']. destruct G7 as [G7 G7'].
  assert (Cp : nth lp k7 [] = P) by (rewrite G7'; auto). assert (Cq : nth lq k7 [] = Q) by (rewrite G7'; auto).
  assert (I7 : in_store k7 ((env9 ++ [RArr lp; RArr lq]) ++ [RNum kesai])).
  { apply in_store_app; [|intros l [H|[]]; discriminate]. apply in_store_app; [eapply st_in; eauto|].
    intros l [[= <-]|[[= <-]|[]]]; lia. }
  edestruct (step_set NumPy 10) as (h8 & G8 & ->); [exact I7|reflexivity| | | |].
  { rewrite !map_app, E7. cbn [val_rhs ev_arr nth call app2 app1 app map look]. nums. rewrite map_map. reflexivity. }
  { rewrite !map_app, E7. reflexivity. }
  { rewrite Cq. apply unset_assign; [lia|auto|]. rewrite map_length. lia. }
  destruct G8 as [G8 G8']. exists P, Q. split; [|split; [|split]].
  - unfold EM_PQ_vectorize. fold cl. rewrite (PQ_elems_nth _ Km Gm Ki Gi cl P Q); try lia; [reflexivity|].
    intros i Hi. unfold EM_PQ_elem. change (if Rlt_dec (nth i cl 0) 1 then _ else _) with (theta2 (nth i cl 0)).
    assert (Hb : forall B (k : fl -> outcome B), bind (theta2 (nth i cl 0)) k = k (theta2 (nth i cl 0))).
    { intros B k. pose proof (theta2_no_exc (nth i cl 0)) as X. clear - X. destruct (theta2 _); simpl in *; auto; contradiction. }
    rewrite Hb. rewrite Lc in Hi. specialize (El i Hi). cbn [map] in El. rewrite !(elem_full i (length al)) in El by (rewrite ?map_length; auto).
    rewrite (nth_indep (map Fin cl) Und (Fin 0)) in El by (rewrite map_length; lia). rewrite map_nth in El.
    rewrite (nth_indep (map theta2 cl) Und (theta2 0)) in El by (rewrite map_length; lia). rewrite map_nth in El.
    cbn [elem] in El. rewrite <- EM_PQ_spheroid_arr in El. apply out2_ret in El. rewrite El. cbn [call].
    destruct (Req_EM_T (nth i cl 0) 1) as [E|_]; [|reflexivity]. exfalso. apply N1. rewrite <- E. apply nth_In. lia.
  - rewrite step_ret2. unfold env9. cbn [app nth contents map look].
    rewrite update_other by auto. rewrite G8', Cp by lia. rewrite update_same by lia. reflexivity.
  - rewrite step_ret2. cbn [fst].
    destruct S7 as (T1 & _ & _ & T4 & _). unfold lt, n0 in *. rewrite update_other by lia. rewrite G8' by lia. exact T4.
  - split; auto. split; auto. split; [apply (Oo (VA P))|apply (Oo (VA Q))]; simpl; auto.
Qed.
End PQ.

(** What a call returns is in the store it leaves. *)
Lemma crun_in m p h env h' vs : in_store h env -> crun m p h env = (h', Ret vs) -> in_store h' vs.
Proof.
  intros I E. pose proof (crun_sim m (length h) (length h) (fun _ => True) (fun l _ H => H) p h h env) as S.
  assert (M : forall l, moved (length h) (length h) l = l) by (intros l; unfold moved; destruct (Nat.ltb_spec l (length h)); lia).
  destruct S as [_ S].
  - repeat split; auto. intros l _ _. f_equal. apply M.
  - intros l Hl. split; auto. unfold vis. auto.
  - assert (Em : map (move (length h) (length h)) env = env).
    { rewrite <- (map_id env) at 2. apply map_ext. intros [x|l]; simpl; [auto|f_equal; apply M]. }
    rewrite Em, E in S. simpl in S. destruct S as [S _]. intros l Hl. apply S. auto.
Qed.
(** A function that may change only argument k. *)
Lemma summary_one m n p k R h env l : summary n p = Some ([k], R) -> length env = n -> nth k env (RNum Und) = RArr l ->
  same_arrays_but l h (fst (crun m p h env)).
Proof.
  intros E L Ek. destruct (summary_sound m n p [k] R h env E L) as [[L1 K] _]. split; auto.
  intros j Hj Hn. apply K; auto. intros (i & [<-|[]] & Ei). congruence.
Qed.
Lemma summary_PQ : summary 5 code_PQ_vectorize = Some ([4%nat], [[]; []]).
Proof. vm_compute. reflexivity. Qed.
Lemma summary_Berryman : summary 6 code_Berryman_func = Some ([5%nat], [[]; []]).
Proof. vm_compute. reflexivity. Qed.
Lemma PQ_frame m h Km Gm Ki Gi la : same_arrays_but la h (fst (crun m code_PQ_vectorize h [Km; Gm; Ki; Gi; RArr la])).
Proof. eapply summary_one; [apply summary_PQ|reflexivity|reflexivity]. Qed.
Lemma Berryman_frame m h Ks Gs Ki Gi X la : same_arrays_but la h (fst (crun m code_Berryman_func h [Ks; Gs; Ki; Gi; X; RArr la])).
Proof. eapply summary_one; [apply summary_Berryman|reflexivity|reflexivity]. Qed.
Lemma fmap2_map2 f a : forall b, fmap2 f a b = map2 f a b.
Proof. induction a as [|x a IH]; intros [|y b]; simpl; auto; f_equal; auto. Qed.
Lemma fsum_no_exc l : (forall x, In x l -> no_exc x) -> no_exc (fsum l).
Proof.
  induction l as [|x l IH]; intros H; simpl; [exact I|]. apply (sem2_no_exc OAdd); [apply H; left; auto|].
  apply IH. intros; apply H; right; auto.
Qed.
Lemma bind_no_exc {A} x (k : fl -> outcome A) : no_exc x -> bind x k = k x.
Proof. destruct x; simpl; auto; contradiction. Qed.
Lemma eq_broadcast f a b : length a = length b -> broadcast f a b = Ret (map2 f a b).
Proof. intros E. unfold broadcast. rewrite E, Nat.eqb_refl. reflexivity. Qed.

Lemma Berryman_run h lk lg lx la Ks Gs al :
  (lk < length h)%nat -> (lg < length h)%nat -> (lx < length h)%nat -> (la < length h)%nat -> lk <> la -> lg <> la -> lx <> la ->
  nth la h [] = map Fin al -> length (nth lk h []) = length al -> length (nth lg h []) = length al -> length (nth lx h []) = length al ->
  (forall x, In x (nth lk h []) -> no_exc x) -> (forall x, In x (nth lg h []) -> no_exc x) -> (forall x, In x (nth lx h []) -> no_exc x) ->
  no_exc Ks -> no_exc Gs ->
  exists eq1 eq2,
  EM_Berryman_func DFloat Ks Gs (nth lk h []) (nth lg h []) (nth lx h []) al = Ret ((eq1, eq2), EM_PQ_clobber DFloat al) /\
  contents (crun NumPy code_Berryman_func h [RNum Ks; RNum Gs; RArr lk; RArr lg; RArr lx; RArr la]) = Ret [VS eq1; VS eq2] /\
  nth la (fst (crun NumPy code_Berryman_func h [RNum Ks; RNum Gs; RArr lk; RArr lg; RArr lx; RArr la])) [] =
    map Fin (EM_PQ_clobber DFloat al).
Proof.
  intros Rk Rg Rx Ra Nk Ng Nx Ea Lk Lg Lx Xk Xg Xx XK XG.
  destruct (PQ_run h lk lg la Ks Gs (nth lk h []) (nth lg h []) al) as (P & Q & E & C & A & LPQ); auto.
  unfold code_Berryman_func. rewrite step_call. cbn [map nth].
  set (args := [RNum Ks; RNum Gs; RArr lk; RArr lg; RArr la]) in *.
  set (env := [RNum Ks; RNum Gs; RArr lk; RArr lg; RArr lx; RArr la]).
  pose proof (PQ_frame NumPy h (RNum Ks) (RNum Gs) (RArr lk) (RArr lg) la) as F. fold args in F.
  assert (Ia : in_store h args).
  { intros l Hl. simpl in Hl. repeat (destruct Hl as [Hl|Hl]; [try discriminate Hl; injection Hl as <-; auto|]); destruct Hl. }
  pose proof (fun h' vs => crun_in NumPy code_PQ_vectorize h args h' vs Ia) as Iv.
  destruct (crun NumPy code_PQ_vectorize h args) as [h1 [vs|e|]]; simpl in C, A, F; try discriminate.
  specialize (Iv h1 vs eq_refl). injection C as C. destruct vs as [|v1 [|v2 [|? ?]]]; simpl in C; try discriminate. injection C as C1 C2.
  destruct F as [F1 F2]. cbn [next]. rewrite <- !F2 in * by auto.
  destruct LPQ as (LP & LQ & XP & XQ).
  assert (I1 : in_store h1 (env ++ [v1; v2])).
  { apply in_store_app; auto. intros l Hl. simpl in Hl.
    repeat (destruct Hl as [Hl|Hl]; [try discriminate Hl; injection Hl as <-; lia|]); destruct Hl. }
  set (K := nth lk h1 []) in *. set (G := nth lg h1 []) in *. set (X := nth lx h1 []) in *.
  set (e1 := map2 fmul (map2 fmul X (map (fun k => k - Ks) K)) P).
  set (e2 := map2 fmul (map2 fmul X (map (fun g => g - Gs) G)) Q).
  assert (M2 : forall a b, length a = length b -> (forall x, In x a -> no_exc x) -> (forall x, In x b -> no_exc x) ->
           length (map2 fmul a b) = length a /\ forall x, In x (map2 fmul a b) -> no_exc x).
  { intros a b Hab Ha Hb. split; [apply map2_length; auto|]. intros x Hx. apply map2_in in Hx as (y & z & Hy & Hz & ->).
    apply (sem2_no_exc OMul); auto. }
  assert (Ms : forall k l, no_exc k -> (forall x, In x l -> no_exc x) -> forall x, In x (map (fun y => y - k) l) -> no_exc x).
  { intros k l Hk Hl x Hx. apply in_map_iff in Hx as (y & <- & Hy). apply (sem2_no_exc OSub); auto. }
  assert (X1 : no_exc (fsum e1)).
  { apply fsum_no_exc. destruct (M2 X (map (fun k => k - Ks) K)) as [L1 N1]; [rewrite map_length; lia|auto|apply Ms; auto|].
    apply M2; auto. lia. }
  assert (X2 : no_exc (fsum e2)).
  { apply fsum_no_exc. destruct (M2 X (map (fun g => g - Gs) G)) as [L1 N1]; [rewrite map_length; lia|auto|apply Ms; auto|].
    apply M2; auto. lia. }
  exists (fsum e1), (fsum e2).
  edestruct (step_sum NumPy) as (h2 & S2 & ->); [exact I1| |].
  { instantiate (1 := e1). rewrite map_app. cbn [map env look app ev_arr nth call]. rewrite C1. fold K X.
    cbn [app2 call]. rewrite eq_broadcast by (rewrite map_length; lia). cbn [call app2].
    rewrite eq_broadcast by (rewrite map2_length; rewrite ?map_length; lia). reflexivity. }
  assert (I2 : in_store h2 ((env ++ [v1; v2]) ++ [RNum (fsum e1)])).
  { apply in_store_app; [eapply in_store_same; eauto|]. intros l [H|[]]; discriminate. }
  edestruct (step_sum NumPy) as (h3 & S3 & ->); [exact I2| |].
  { instantiate (1 := e2). rewrite !map_app. rewrite <- map_app. rewrite (looks_same h1 h2) by auto. rewrite map_app.
    cbn [map env look app ev_arr nth call]. rewrite C2. fold G X.
    cbn [app2 call]. rewrite eq_broadcast by (rewrite map_length; lia). cbn [call app2].
    rewrite eq_broadcast by (rewrite map2_length; rewrite ?map_length; lia). reflexivity. }
  rewrite step_ret2. split; [|split].
  - unfold EM_Berryman_func. rewrite E. cbn [call]. do 2 (rewrite L_Lists.np_bc_eq by (rewrite ?L_Lists.fmap2_length; rewrite ?map_length; lia); cbn [call]).
    rewrite bind_no_exc by (rewrite !fmap2_map2; auto). do 2 (rewrite L_Lists.np_bc_eq by (rewrite ?L_Lists.fmap2_length; rewrite ?map_length; lia); cbn [call]).
    rewrite !fmap2_map2. fold e1 e2. rewrite !bind_no_exc by auto. reflexivity.
  - reflexivity.
  - cbn [fst]. rewrite (proj2 S3) by (destruct S2; lia). rewrite (proj2 S2) by lia. exact A.
Qed.
