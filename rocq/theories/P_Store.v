(** * P_Store: property C87, what calls do to the arrays of the caller. *)
From Verif Require Import Fl M_Utils M_EM M_GM M_Emp M_Array M_ArrayFns Spec16 L_Array L_ArrayFns M_QI L_Plot P_QI M_Store Spec23 L_Store L_StoreFns L_StoreFns2.
Open Scope fl_scope.

(** ** One call. *)
(** A call returns what M_Array.v computes from the contents of its arguments. *)
Theorem C87_results_from_contents : forall m p h env,
  in_store h env -> contents (crun m (lines p) h env) = run_arr m p (map (look h) env).
Proof.
  intros m p h env I. pose proof (lines_val m p h env I) as V.
  destruct (crun m (lines p) h env) as [h' [vs|e|]], (run_arr m p (map (look h) env)) as [xs|e'|]; simpl in V |- *;
    try contradiction; try congruence. destruct V as [_ ->]. reflexivity.
Qed.
Print Assumptions C87_results_from_contents.

(** Whatever a call of a library function does - return, raise, or leave the model - the arrays of the caller are unchanged. *)
Theorem C87_calls_keep_arrays : forall m n f h env,
  In (n, f) library -> length env = n -> same_arrays h (fst (crun m f h env)).
Proof.
  intros m n f h env H L. unfold library in H. apply in_app_or in H as [H|H].
  - apply in_map_iff in H as ([k p] & [= <- <-] & _). apply lines_same.
  - assert (X : exists R, summary n f = Some ([], R)).
    { simpl in H. repeat (destruct H as [[= <- <-]|H]; [eexists; vm_compute; reflexivity|]). destruct H. }
    destruct X as [R X]. eapply summary_pure; eauto.
Qed.
Print Assumptions C87_calls_keep_arrays.

(** Of the functions of M_ArrayFns.v all but [Fluid.Gassmann] return new arrays, no two the same. *)
Theorem C87_results_are_new : forall m n p h env,
  In (n, p) programs -> p <> arr_Fluid_Gassmann -> length env = n -> in_store h env -> new_arrays h (crun m (lines p) h env).
Proof.
  intros m n p h env H Np L I. apply (separate_sound m n p h env); auto. clear - H Np. unfold programs in H.
  repeat (destruct H as [H|H];
    [injection H as <- <-; first [vm_compute; reflexivity | exfalso; apply Np; reflexivity]|]). destruct H.
Qed.
Print Assumptions C87_results_are_new.

(** [Fluid.Gassmann] returns the array of dry shear moduli itself as its second result. *)
Theorem C87_gassmann_returns_its_argument : forall m h K_dry G_dry K_mat Kf phi h' vs,
  crun m (lines arr_Fluid_Gassmann) h [K_dry; G_dry; K_mat; Kf; phi] = (h', Ret vs) ->
  nth 1 vs (RNum Und) = G_dry.
Proof.
  intros m h K_dry G_dry K_mat Kf phi h' vs E. unfold arr_Fluid_Gassmann in E. cbn [lines crun] in E.
  do 3 match type of E with next ?a _ = _ => destruct a as [? [?|?|]]; cbn [next] in E; try discriminate end.
  cbn [cevs cev next done app nth] in E. injection E as <- <-. reflexivity.
Qed.
Print Assumptions C87_gassmann_returns_its_argument.

(** Those that assign to arrays of their own return new arrays too, and compute what their models say. *)
Theorem C87_masked_results_are_new : forall m n f h env h' vs,
  In (n, f) [(4, code_diluting); (1, code_ramm_segment); (11, code_cst_vels arr_GM_constantcement_1);
             (11, code_cst_vels arr_GM_constantcement_2); (5, code_PQ_vectorize)]%nat ->
  length env = n -> crun m f h env = (h', Ret vs) -> forall l, In (RArr l) vs -> (length h <= l)%nat.
Proof.
  intros m n f h env h' vs H L E l Hl.
  assert (X : exists w k, summary n f = Some (w, repeat [] k)).
  { simpl in H. repeat (destruct H as [[= <- <-]|H];
      [first [exists [], 1%nat; vm_compute; reflexivity | exists [], 2%nat; vm_compute; reflexivity
             | exists [4%nat], 2%nat; vm_compute; reflexivity]|]). destruct H. }
  destruct X as (w & k & X). destruct (summary_sound m n f w _ h env X L) as [_ F]. rewrite E in F. specialize (F vs eq_refl).
  destruct (Nat.lt_ge_cases l (length h)) as [Hn|]; auto. exfalso. clear - F Hl Hn. revert k F.
  induction vs as [|v vs IH]; intros [|k] F; inversion F; subst; simpl in Hl; try contradiction.
  destruct Hl as [->|Hl]; [|eauto]. destruct (H2 l eq_refl Hn) as (j & [] & _).
Qed.
Print Assumptions C87_masked_results_are_new.
Theorem C87_diluting : forall h l k s0 m_, (l < length h)%nat ->
  (forall s, In s (nth l h []) -> known (k * fpow NumPy (#1 - s /n s0) m_)) ->
  contents (crun NumPy code_diluting h [RNum k; RNum s0; RArr l; RNum m_]) =
  call! a := GM_diluting NumPy k s0 (SArray (nth l h [])) m_ in Ret [VA a].
Proof. exact diluting_contents. Qed.
Print Assumptions C87_diluting.
Theorem C87_porosity_segment : forall h l, (l < length h)%nat ->
  contents (crun NumPy code_ramm_segment h [RArr l]) = call! a := Emp_ramm_porosity_segment (nth l h []) in Ret [VA a].
Proof. exact ramm_contents. Qed.
Print Assumptions C87_porosity_segment.
(** [QI.cst_vels]: the two arrays of velocities are, sample by sample, those of M_QI.v (not a number beyond [phi_b]). *)
Theorem C87_cst_vels : forall m (scheme : Z) cc h l phis b K0 D0 G0 phi_c Cn Kc Gc Db Kb vsh Dsh Dqz Dc,
  (scheme = 1%Z /\ cc = arr_GM_constantcement_1) \/ (scheme = 2%Z /\ cc = arr_GM_constantcement_2) ->
  (l < length h)%nat -> nth l h [] = map Fin phis -> (b <> 1)%R -> (0 < Dsh)%R -> (0 < Dqz)%R -> (0 < Dc)%R ->
  exists D rows, QI_den_matrix m #vsh #phi_c #b #Dsh #Dqz #Dc = Ret D /\ length rows = length phis /\
    (forall i, (i < length phis)%nat ->
       QI_cst_vels m #b #K0 D0 #G0 (Fin (nth i phis 0%R)) #phi_c #Cn #Kc #Gc #Db #Kb scheme #vsh #Dsh #Dqz #Dc = Ret (nth i rows (Und, Und))) /\
    contents (crun NumPy (code_cst_vels cc) h
      [RNum #b; RNum #K0; RNum #G0; RNum #Kc; RNum #Gc; RArr l; RNum #phi_c; RNum #Cn; RNum D; RNum #Kb; RNum #Db])
    = Ret [VA (map fst rows); VA (map snd rows)].
Proof.
  intros m scheme cc h l phis b K0 D0 G0 phi_c Cn Kc Gc Db Kb vsh Dsh Dqz Dc Hc Hl Hp Hb P1 P2 P3.
  destruct (C62_den_matrix m vsh phi_c b Dsh Dqz Dc Hb P1 P2 P3) as (D & ED & _).
  assert (X : exists rows, oseq (fun p => QI_cst_vels m #b #K0 D0 #G0 p #phi_c #Cn #Kc #Gc #Db #Kb scheme #vsh #Dsh #Dqz #Dc) (map Fin phis) = Ret rows).
  { clear Hp. induction phis as [|p phis [rows IH]]; [exists []; reflexivity|]. cbn [map oseq].
    destruct (cst_ret m b K0 D0 G0 p phi_c Cn Kc Gc Db Kb scheme vsh Dsh Dqz Dc Hb P1 P2 P3) as (v & w & ->). cbn [call]. rewrite IH.
    eexists. reflexivity. }
  destruct X as [rows X]. destruct (oseq_nth _ Und (Und, Und) _ _ X) as [L R]. rewrite map_length in L, R.
  exists (Fin D), rows. split; [exact ED|]. split; [exact L|]. split.
  - intros i Hi. rewrite <- R by exact Hi. rewrite (nth_indep _ Und (Fin 0)) by (rewrite map_length; lia). rewrite map_nth. reflexivity.
  - apply (cst_contents m scheme cc Hc h l #b #K0 D0 #G0 #phi_c #Cn #Kc #Gc #Db #Kb #vsh #Dsh #Dqz #Dc #D); auto; try exact Logic.I.
    + rewrite Hp. intros x Hx. apply in_map_iff in Hx as (y & <- & _). exact Logic.I.
    + rewrite Hp. exact X.
Qed.
Print Assumptions C87_cst_vels.

(** ** The aspect ratios. *)
(** [EM.PQ_vectorize] and [EM.Berryman_func] change the array of aspect ratios and no other, whatever happens. *)
Theorem C87_only_aspect_ratios_change : forall m h Km Gm Ki Gi X la,
  same_arrays_but la h (fst (crun m code_PQ_vectorize h [Km; Gm; Ki; Gi; RArr la])) /\
  same_arrays_but la h (fst (crun m code_Berryman_func h [Km; Gm; Ki; Gi; X; RArr la])).
Proof. intros. split; [apply PQ_frame|apply Berryman_frame]. Qed.
Print Assumptions C87_only_aspect_ratios_change.

(** They return what the models say, and leave the aspect ratios the models say. *)
Theorem C87_pq_vectorize : forall h lk lg la Km Gm al,
  (lk < length h)%nat -> (lg < length h)%nat -> (la < length h)%nat -> lk <> la -> lg <> la ->
  nth la h [] = map Fin al -> length (nth lk h []) = length al -> length (nth lg h []) = length al ->
  is_value (VA (nth lk h [])) -> is_value (VA (nth lg h [])) -> no_exc Km -> no_exc Gm ->
  exists P Q al', EM_PQ_vectorize DFloat Km Gm (nth lk h []) (nth lg h []) al = Ret ((P, Q), al') /\
    contents (crun NumPy code_PQ_vectorize h [RNum Km; RNum Gm; RArr lk; RArr lg; RArr la]) = Ret [VA P; VA Q] /\
    nth la (fst (crun NumPy code_PQ_vectorize h [RNum Km; RNum Gm; RArr lk; RArr lg; RArr la])) [] = map Fin al'.
Proof.
  intros h lk lg la Km Gm al Rk Rg Ra Nk Ng Ea Lk Lg Xk Xg XK XG.
  destruct (PQ_run h lk lg la Km Gm (nth lk h []) (nth lg h []) al) as (P & Q & E & C & A & _); auto.
  exists P, Q, (EM_PQ_clobber DFloat al). auto.
Qed.
Print Assumptions C87_pq_vectorize.
Theorem C87_berryman_func : forall h lk lg lx la Ks Gs al,
  (lk < length h)%nat -> (lg < length h)%nat -> (lx < length h)%nat -> (la < length h)%nat -> lk <> la -> lg <> la -> lx <> la ->
  nth la h [] = map Fin al -> length (nth lk h []) = length al -> length (nth lg h []) = length al -> length (nth lx h []) = length al ->
  is_value (VA (nth lk h [])) -> is_value (VA (nth lg h [])) -> is_value (VA (nth lx h [])) -> no_exc Ks -> no_exc Gs ->
  exists eq1 eq2 al', EM_Berryman_func DFloat Ks Gs (nth lk h []) (nth lg h []) (nth lx h []) al = Ret ((eq1, eq2), al') /\
    contents (crun NumPy code_Berryman_func h [RNum Ks; RNum Gs; RArr lk; RArr lg; RArr lx; RArr la]) = Ret [VS eq1; VS eq2] /\
    nth la (fst (crun NumPy code_Berryman_func h [RNum Ks; RNum Gs; RArr lk; RArr lg; RArr lx; RArr la])) [] = map Fin al'.
Proof.
  intros h lk lg lx la Ks Gs al Rk Rg Rx Ra Nk Ng Nx Ea Lk Lg Lx Xk Xg Xx XK XG.
  destruct (Berryman_run h lk lg lx la Ks Gs al) as (e1 & e2 & E & C & A); auto.
  exists e1, e2, (EM_PQ_clobber DFloat al). auto.
Qed.
Print Assumptions C87_berryman_func.
(** An exception does not undo the change: with another number of aspect ratios than of moduli [EM.PQ_vectorize] raises, and
    the caller's aspect ratios have changed all the same. *)
Theorem C87_exception_keeps_changes : forall h lk lg la Km Gm al,
  (lk < length h)%nat -> (lg < length h)%nat -> (la < length h)%nat ->
  nth la h [] = map Fin al -> length (nth lk h []) <> length al ->
  exists h', crun NumPy code_PQ_vectorize h [RNum Km; RNum Gm; RArr lk; RArr lg; RArr la] = (h', Raise IndexError) /\
    nth la h' [] = map (fun a => if Req_EM_T a 1 then #0.999 else Fin a) al.
Proof.
  intros h lk lg la Km Gm al R1 R2 R3 Ea N. destruct (PQ_misfit h lk lg la Km Gm al) as (h' & E & A); auto.
  exists h'. split; [exact E|]. rewrite A. unfold EM_PQ_clobber. rewrite map_map. apply map_ext. intros a. destruct (Req_EM_T a 1); reflexivity.
Qed.
Print Assumptions C87_exception_keeps_changes.

(** ** Any code: a call sees of the store only the contents of its arguments. *)
Theorem C87_calls_depend_on_contents : forall m (f : code) h h1 env,
  in_store h env -> in_store h1 env -> map (look h) env = map (look h1) env ->
  contents (crun m f h env) = contents (crun m f h1 env) /\
  forall l, In (RArr l) env -> nth l (fst (crun m f h env)) [] = nth l (fst (crun m f h1 env)) [].
Proof. exact call_sim. Qed.
Print Assumptions C87_calls_depend_on_contents.

(** ** Sessions. *)
Lemma act_ok m s a : in_store (fst s) (snd s) ->
  in_store (fst (act m s a)) (snd (act m s a)) /\ (length (fst s) <= length (fst (act m s a)))%nat /\
  exists new, snd (act m s a) = snd s ++ new.
Proof.
  destruct s as [h env]. cbn [fst snd]. intros I. destruct a as [x|l|x|x i v|f args]; cbn [act].
  - cbn [fst snd]. split; [apply in_store_app; auto; intros l [E|[]]; discriminate|]. eauto.
  - cbn [fst snd]. split; [|rewrite app_length; split; [lia|eauto]].
    apply in_store_app; [eapply in_store_same; [apply same_app|auto]|]. intros k [[= <-]|[]]. rewrite app_length. simpl. lia.
  - cbn [fst snd]. split; [|eauto]. apply in_store_app; auto. intros l [E|[]]. eapply in_store_nth; eauto.
  - destruct (nth x env (RNum Und)) as [y|l]; cbn [fst snd]; rewrite ?update_length; (split; [|split; [auto|exists []; rewrite app_nil_r; auto]]); auto.
    intros k Hk. rewrite update_length. auto.
  - pose proof (crun_longer m f h (map (fun k => nth k env (RNum Und)) args)) as L.
    assert (Ia : in_store h (map (fun k => nth k env (RNum Und)) args)).
    { intros l Hl. apply in_map_iff in Hl as (k & Hk & _). eapply in_store_nth; eauto. }
    pose proof (fun h' vs => crun_in m f h _ h' vs Ia) as V.
    destruct (crun m f h (map (fun k => nth k env (RNum Und)) args)) as [h' [vs|e|]]; cbn [fst snd] in *.
    + split; [|split; [auto|eauto]]. apply in_store_app; [|apply V; auto]. intros l Hl. specialize (I l Hl). lia.
    + split; [|split; [auto|exists []; rewrite app_nil_r; auto]]. intros l Hl. specialize (I l Hl). lia.
    + split; [|split; [auto|exists []; rewrite app_nil_r; auto]]. intros l Hl. specialize (I l Hl). lia.
Qed.
Lemma session_ok m acts : forall s, in_store (fst s) (snd s) ->
  in_store (fst (session m s acts)) (snd (session m s acts)) /\ (length (fst s) <= length (fst (session m s acts)))%nat /\
  exists new, snd (session m s acts) = snd s ++ new.
Proof.
  induction acts as [|a acts IH]; intros s I.
  - split; auto. split; auto. exists []. rewrite app_nil_r. auto.
  - destruct (act_ok m s a I) as (I1 & L1 & n1 & E1). destruct (IH _ I1) as (I2 & L2 & n2 & E2).
    change (session m s (a :: acts)) with (session m (act m s a) acts). split; auto. split; [lia|].
    exists (n1 ++ n2). rewrite E2, E1, app_assoc. auto.
Qed.
(** However long the session and whichever library functions are called in whatever order, an array changes only when the
    caller assigns to its elements. *)
Theorem C87_sessions_keep_arrays : forall m acts s l,
  in_store (fst s) (snd s) -> calls_only library acts -> (l < length (fst s))%nat -> ~ edited m s acts l ->
  nth l (fst (session m s acts)) [] = nth l (fst s) [].
Proof.
  intros m acts. induction acts as [|a acts IH]; intros s l I C L E; auto.
  change (session m s (a :: acts)) with (session m (act m s a) acts). destruct (act_ok m s a I) as (I1 & L1 & _).
  simpl in E. rewrite IH; auto; [|intros f args H; apply C; right; auto|lia].
  destruct s as [h env], a as [x|k|x|x i v|f args]; cbn [act fst snd] in *; auto.
  - apply app_nth1. auto.
  - destruct (nth x env (RNum Und)) as [y|k]; auto. cbn [fst]. apply update_other. intros ->. tauto.
  - assert (S : same_arrays h (fst (crun m f h (map (fun k => nth k env (RNum Und)) args)))).
    { eapply C87_calls_keep_arrays; [apply C; left; reflexivity|apply map_length]. }
    destruct (crun m f h _) as [h' [vs|e|]]; apply S; auto.
Qed.
Print Assumptions C87_sessions_keep_arrays.

(** Nor does the order of calls matter to a call: after any session that does not assign to its arguments it gives the same. *)
Theorem C87_sessions_repeat_calls : forall m s acts f args,
  in_store (fst s) (snd s) -> calls_only library acts -> (forall k, In k args -> (k < length (snd s))%nat) ->
  (forall k l, In k args -> nth k (snd s) (RNum Und) = RArr l -> ~ edited m s acts l) ->
  contents (crun m f (fst (session m s acts)) (pick (snd (session m s acts)) args)) = contents (crun m f (fst s) (pick (snd s) args)).
Proof.
  intros m s acts f args I C K E. destruct (session_ok m acts s I) as (I1 & L1 & new & N1).
  assert (P : pick (snd (session m s acts)) args = pick (snd s) args).
  { unfold pick. apply map_ext_in. intros k Hk. rewrite N1. apply app_nth1. auto. }
  rewrite P. assert (Ia : in_store (fst s) (pick (snd s) args)).
  { intros l Hl. apply in_map_iff in Hl as (k & Hk & _). eapply in_store_nth; eauto. }
  symmetry. apply call_sim; auto.
  - intros l Hl. specialize (Ia l Hl). lia.
  - apply map_ext_in. intros v Hv. destruct v as [x|l]; simpl; auto. f_equal. symmetry.
    apply C87_sessions_keep_arrays; auto. unfold pick in Hv. apply in_map_iff in Hv as (k & Hk & Hin). eauto.
Qed.
Print Assumptions C87_sessions_repeat_calls.

(** ** Where the caller is surprised. *)
Lemma act_call m h env f args h' vs : crun m f h (pick env args) = (h', Ret vs) -> act m (h, env) (ACall f args) = (h', env ++ vs).
Proof. intros E. unfold act. fold (pick env args). rewrite E. reflexivity. Qed.
(** With [EM.PQ_vectorize] among the calls an array changes that the caller never assigned to, and with it the results of
    other functions: the crack porosity for the aspect ratio 1 is no longer that. *)
Theorem C87_aspect_ratios_refuted : exists s acts,
  in_store (fst s) (snd s) /\ (forall l, ~ edited NumPy s acts l) /\
  (forall f args, In (ACall f args) acts -> f = code_PQ_vectorize /\ length args = 5%nat) /\
  contents (crun NumPy (lines arr_utils_crack_por) (fst (session NumPy s acts)) (pick (snd (session NumPy s acts)) [0; 4]%nat)) <>
  contents (crun NumPy (lines arr_utils_crack_por) (fst s) (pick (snd s) [0; 4]%nat)).
Proof.
  exists ([[#37]; [#44]; [#1]], [RNum #37; RNum #44; RArr 0; RArr 1; RArr 2]), [ACall code_PQ_vectorize [0; 1; 2; 3; 4]%nat].
  set (h := [[#37]; [#44]; [#1]]).
  assert (I : in_store h [RNum #37; RNum #44; RArr 0; RArr 1; RArr 2]).
  { intros l Hl. simpl in Hl. repeat (destruct Hl as [Hl|Hl]; [try discriminate Hl; injection Hl as <-; simpl; lia|]); destruct Hl. }
  split; [exact I|]. split; [intros l [H|H]; exact H|].
  split; [intros f args [[= <- <-]|[]]; auto|].
  destruct (PQ_run h 0 1 2 #37 #44 [#37] [#44] [1]%R) as (P & Q & _ & C & A & _);
    try match goal with
    | |- contents _ <> _ => fail 1
    | _ => simpl; first [lia | reflexivity | exact Logic.I | intros x [<-|[]]; exact Logic.I]
    end.
  pose proof (PQ_frame NumPy h (RNum #37) (RNum #44) (RArr 0) (RArr 1) 2) as [L _].
  destruct (crun NumPy code_PQ_vectorize h [RNum #37; RNum #44; RArr 0; RArr 1; RArr 2]) as [h' [vs|e|]] eqn:E; simpl in C; try discriminate.
  cbn [fst] in A, L.
  assert (X : session NumPy (h, [RNum #37; RNum #44; RArr 0; RArr 1; RArr 2]) [ACall code_PQ_vectorize [0; 1; 2; 3; 4]%nat] =
              (h', [RNum #37; RNum #44; RArr 0; RArr 1; RArr 2] ++ vs)) by (apply act_call; exact E).
  rewrite X. clear X E. cbn [fst snd pick map nth app].
  rewrite !C87_results_from_contents.
  2: { intros l Hl. simpl in Hl. destruct Hl as [Hl|[[= <-]|[]]]; [discriminate|simpl; lia]. }
  2: { intros l Hl. simpl in Hl. destruct Hl as [Hl|[[= <-]|[]]]; [discriminate|simpl in L; lia]. }
  cbn [map look]. rewrite A. unfold arr_utils_crack_por, EM_PQ_clobber. cbn [map nth h].
  destruct (Req_EM_T 1 1) as [_|N]; [|lra]. cbn. destruct (Req_EM_T 3 0); [lra|].
  intros [= E]. pose proof PI_RGT_0. lra.
Qed.
Print Assumptions C87_aspect_ratios_refuted.

(** Assigning to an element of the saturated shear moduli of [Fluid.Gassmann] changes the dry ones. *)
Theorem C87_gassmann_alias_refuted : exists s acts l,
  in_store (fst s) (snd s) /\ calls_only library acts /\ (l < length (fst s))%nat /\
  (forall x i v, In (AEdit x i v) acts -> (length (snd s) <= x)%nat) /\
  nth l (fst (session NumPy s acts)) [] <> nth l (fst s) [].
Proof.
  exists ([[#20]; [#15]], [RArr 0; RArr 1; RNum #37; RNum #2; RNum #(2/10)]),
    [ACall (lines arr_Fluid_Gassmann) [0; 1; 2; 3; 4]%nat; AEdit 6 0 #0], 1%nat.
  set (h := [[#20]; [#15]]). set (env := [RArr 0; RArr 1; RNum #37; RNum #2; RNum #(2/10)]).
  assert (I : in_store h env).
  { intros l Hl. simpl in Hl. repeat (destruct Hl as [Hl|Hl]; [try discriminate Hl; injection Hl as <-; simpl; lia|]); destruct Hl. }
  split; [exact I|]. split.
  { intros f args [[= <- <-]|[H|[]]]; [|discriminate]. unfold library. apply in_or_app. left.
    apply in_map_iff. exists (5%nat, arr_Fluid_Gassmann). split; [reflexivity|]. unfold programs. repeat first [left; reflexivity | right]. }
  split; [simpl; lia|]. split; [intros x i v [H|[[= <- <- <-]|[]]]; [discriminate|simpl; lia]|].
  pose proof (C87_results_from_contents NumPy arr_Fluid_Gassmann h env I) as C.
  pose proof (lines_same NumPy arr_Fluid_Gassmann h env) as [S1 S2].
  pose proof (C87_gassmann_returns_its_argument NumPy h (RArr 0) (RArr 1) (RNum #37) (RNum #2) (RNum #(2/10))) as G. fold env in G.
  assert (X : exists a b, run_arr NumPy arr_Fluid_Gassmann (map (look h) env) = Ret [a; b]).
  { unfold arr_Fluid_Gassmann. cbn [map look env h nth]. cbn.
    repeat (destruct (Req_EM_T _ _); [exfalso; lra|cbn]). eexists. eexists. reflexivity. }
  destruct X as (a & b & X). rewrite X in C.
  destruct (crun NumPy (lines arr_Fluid_Gassmann) h env) as [h' [vs|e|]] eqn:E; simpl in C; try discriminate.
  injection C as C. specialize (G h' vs eq_refl). destruct vs as [|v1 [|v2 [|? ?]]]; simpl in C; try discriminate.
  simpl in G. subst v2.
  assert (Y : session NumPy (h, env) [ACall (lines arr_Fluid_Gassmann) [0; 1; 2; 3; 4]%nat; AEdit 6 0 #0] =
              act NumPy (h', env ++ [v1; RArr 1]) (AEdit 6 0 #0)).
  { unfold session. cbn [fold_left]. f_equal. apply act_call. exact E. }
  rewrite Y. cbn [act env app nth fst]. rewrite update_same by (simpl in *; lia).
  cbn [fst] in S2. rewrite S2 by (simpl; lia). simpl. intros [= E1]. lra.
Qed.
Print Assumptions C87_gassmann_alias_refuted.

(** ** Examples. *)
(** A store of three arrays, and names for them: the hypotheses above hold, with arrays that differ. *)
Example C87_nonvacuous_store :
  let h := [[#37; #38]; [#44; #45]; [#1; #(1/10)]] in
  in_store h [RNum #37; RNum #44; RArr 0; RArr 1; RArr 2] /\ ~ in_store h [RArr 3] /\ ~ same_arrays h [[#37; #38]; [#44; #45]] /\
  is_value (VA (nth 0 h [])) /\ nth 2 h [] = map Fin [1; 1/10]%R /\ length (nth 0 h []) = 2%nat.
Proof.
  cbn zeta. split; [|split; [|split; [|split; [|split; reflexivity]]]].
  - intros l Hl. simpl in Hl. repeat (destruct Hl as [Hl|Hl]; [try discriminate Hl; injection Hl as <-; simpl; lia|]). destruct Hl.
  - intros H. specialize (H 3%nat (or_introl eq_refl)). simpl in H. lia.
  - intros [H _]. simpl in H. lia.
  - intros x [<-|[<-|[]]]; exact Logic.I.
Qed.
(** Stresses below and above [sigma0], where the power is a number and not one. *)
Example C87_nonvacuous_masks :
  (forall s, In s [#5; #20] -> known (#10 * fpow NumPy (#1 - s /n #10) #(1/2))) /\
  fpow NumPy (#1 - #20 /n #10) #(1/2) = NaN.
Proof.
  assert (N : fpow NumPy (#1 - #20 /n #10) #(1/2) = NaN).
  { rewrite fdiv_fin by lra. cbn [fsub fadd fneg]. apply fpow_neg_np; [lra|]. intros z E.
    assert (H : IZR (2 * z) = IZR 1) by (rewrite mult_IZR; lra). apply eq_IZR in H. lia. }
  split; [|exact N]. intros s [<-|[<-|[]]]; [|rewrite N; exact Logic.I].
  rewrite fdiv_fin by lra. rewrite fsub_fin, fpow_fin by lra. exact Logic.I.
Qed.
(** A session of a library call and an assignment to one of its results: the arrays of the caller are not assigned to. *)
Example C87_nonvacuous_session :
  let s := ([[#1; #2]; [#3; #4]], [RArr 0; RArr 1]) in
  let acts := [ACall (lines arr_utils_lame) [0; 1]%nat; AEdit 2 0 #7] in
  in_store (fst s) (snd s) /\ calls_only library acts /\ ~ edited NumPy s acts 0 /\ ~ edited NumPy s acts 1 /\
  edited NumPy s acts 4.
Proof.
  cbn zeta. split; [|split].
  - intros l Hl. simpl in Hl. repeat (destruct Hl as [Hl|Hl]; [try discriminate Hl; injection Hl as <-; simpl; lia|]). destruct Hl.
  - intros f args [[= <- <-]|[H|[]]]; [|discriminate]. unfold library. apply in_or_app. left.
    apply in_map_iff. exists (2%nat, arr_utils_lame). split; [reflexivity|]. unfold programs. repeat first [left; reflexivity | right].
  - cbn. split; [|split].
    + intuition discriminate.
    + intuition discriminate.
    + tauto.
Qed.
(** One aspect ratio for two minerals: an exception, and the 1 is gone. *)
Example C87_nonvacuous_exception :
  let h := [[#37; #38]; [#44; #45]; [#1]] in
  nth 2 h [] = map Fin [1]%R /\ length (nth 0 h []) <> 1%nat /\
  exists h', crun NumPy code_PQ_vectorize h [RNum #37; RNum #44; RArr 0; RArr 1; RArr 2] = (h', Raise IndexError) /\
    nth 2 h' [] <> nth 2 h [].
Proof.
  cbn zeta. split; [reflexivity|]. split; [discriminate|].
  destruct (C87_exception_keeps_changes [[#37; #38]; [#44; #45]; [#1]] 0 1 2 #37 #44 [1]%R) as (h' & E & A); try (simpl; lia); try reflexivity.
  exists h'. split; [exact E|]. rewrite A. cbn [map nth]. destruct (Req_EM_T 1 1); [|lra]. intros [= H]. lra.
Qed.
