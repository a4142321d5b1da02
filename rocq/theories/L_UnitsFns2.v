(** * L_UnitsFns2: changes of units for functions with lists, loops, matrices, complex numbers and solvers. *)
From Verif Require Import Spec20 Fl Cx M_Utils M_EM M_Anis M_Fluid M_GM M_Perm M_Emp M_AVO M_QI M_Array L_Units L_Units2 L_UnitsFns.
Open Scope R_scope.

Lemma sc_call A B (g : A -> A) o o' (k k' : A -> outcome B) (R : outcome B -> outcome B) :
  (forall e, R (Raise e) = Raise e) -> R Unknown = Unknown -> o' = after g o -> (forall a, k' (g a) = R (k a)) -> call o' k' = R (call o k).
Proof. intros H1 H2 -> H. destruct o; cbn; auto. Qed.
Ltac cl := eapply sc_call; [reflexivity|reflexivity| |].
Ltac bd u := eapply (sc_bind0 u); [reflexivity|sc|intro; cbv beta].
Section Fns.
Variables (u : units) (m : mode).
(** ** Averages over lists *)
Lemma units_EM_VRH v M d : dred d = d -> EM_VRH v (inl u d M) = after (in3 u d d d) (EM_VRH v M).
Proof.
  intros Hd. assert (A : dmul dless d = d).
  { destruct d as ((a & b) & c). unfold dmul, ddiv, dless, dred in *. injection Hd as Ha Hb Hc.
    rewrite (Qred_complete (0 + a) a), (Qred_complete (0 + b) b), (Qred_complete (0 + c) c), Ha, Hb, Hc by ring. reflexivity. }
  assert (B : ddiv dless (dmul dless (ddiv dless d)) = d).
  { destruct d as ((a & b) & c). unfold dmul, ddiv, dless, dred in *. injection Hd as Ha Hb Hc.
    rewrite (Qred_complete (0 - Qred (0 + Qred (0 - a))) a), (Qred_complete (0 - Qred (0 + Qred (0 - b))) b), (Qred_complete (0 - Qred (0 + Qred (0 - c))) c), Ha, Hb, Hc by (rewrite !Qred_correct; ring). reflexivity. }
  unfold EM_VRH. rewrite inl_length. destruct (negb _); [reflexivity|].
  eapply (sc_bind0 u); [reflexivity| |intro x].
  { rewrite <- (inl_dless u v) at 1. apply sc_fdot. symmetry; exact A. }
  eapply (sc_bind0 u); [reflexivity| |intro y].
  { eapply sc_div; [apply sc_lit| |symmetry; exact B].
    rewrite (sc_map u (fun x => fdiv NumPy #1 x) (fun x => fdiv NumPy #1 x) d (ddiv dless d)) with (a := M); auto.
    - rewrite <- (inl_dless u v) at 1. apply sc_fdot. reflexivity.
    - intros z. eapply sc_div; [apply sc_lit|reflexivity|reflexivity]. }
  eapply (sc_bind0 u) with (d := d); [reflexivity| |intro z].
  { eapply sc_mul; [apply sc_lit|apply sc_add; reflexivity|symmetry; exact A]. }
  reflexivity.
Qed.
Lemma sc_np_map2 (f f' : fl -> fl -> fl) d e g a b : (forall x y, f' (inu u d x) (inu u e y) = inu u g (f x y)) ->
  np_map2 f' (inl u d a) (inl u e b) = after (inl u g) (np_map2 f a b).
Proof.
  intros H. unfold np_map2. rewrite !inl_length. destruct (Nat.eqb _ _); [|reflexivity]. cbn. f_equal. eapply sc_fmap2'; eauto.
Qed.
Lemma sc_np_dot d e g a b : g = dmul d e -> np_dot (inl u d a) (inl u e b) = after (inu u g) (np_dot a b).
Proof. intros H. unfold np_dot. rewrite !inl_length. destruct (Nat.eqb _ _); [|reflexivity]. cbn. f_equal. apply sc_fdot, H. Qed.
Lemma units_Backus_n d V lamda G : ddiv d d = dless ->
  Anis_Backus (inl u d V) (inl u stress lamda) (inl u stress G) = after (in5 u stress stress stress stress stress) (Anis_Backus V lamda G).
Proof.
  intros Hd. unfold Anis_Backus. eapply (sc_bind0 u); [reflexivity|apply sc_fsum|intro s; cbv beta].
  set (V1 := map (fun v => fdiv NumPy v s) V).
  replace (map (fun v => fdiv NumPy v (inu u d s)) (inl u d V)) with (inl u dless V1).
  2:{ symmetry. unfold V1. eapply sc_map; [reflexivity|]. intros. eapply sc_div; [reflexivity|reflexivity|symmetry; exact Hd]. }
  clearbody V1.
  cl; [apply sc_np_map2; intros; sc|intro lam2; cbv beta].
  cl; [apply sc_np_map2; intros; sc|intro lamr; cbv beta].
  cl; [apply sc_np_map2; intros; sc|intro fourg; cbv beta].
  cl; [apply sc_np_dot; dcomp|intro d33; cbv beta]. bd u.
  rewrite (sc_map u (fun g => fdiv NumPy #1 g) (fun g => fdiv NumPy #1 g) stress compliance G) by (try reflexivity; intros; sc).
  cl; [apply sc_np_dot; dcomp|intro d44; cbv beta]. bd u.
  cl; [apply sc_np_dot; dcomp|intro c66; cbv beta].
  cl; [apply sc_np_dot; dcomp|intro dr; cbv beta]. bd u.
  cl; [apply sc_np_dot; dcomp|intro d11; cbv beta]. bd u. reflexivity.
Qed.
Lemma units_Anis_Backus V lamda G :
  Anis_Backus (inl u length_d V) (inl u stress lamda) (inl u stress G) = after (in5 u stress stress stress stress stress) (Anis_Backus V lamda G).
Proof. apply units_Backus_n. reflexivity. Qed.
Lemma sc_np_diff d l : np_diff (inl u d l) = inl u d (np_diff l).
Proof. induction l as [|x [|y l] I]; auto. cbn [inl map np_diff] in *. f_equal; [apply inu_sub|exact I]. Qed.
Lemma units_Anis_Backus_log Vp Vs Den Depth :
  Anis_Backus_log (inl u velocity Vp) (inl u velocity Vs) (inl u density Den) (inl u length_d Depth)
  = after (in6 u stress stress stress stress stress density) (Anis_Backus_log Vp Vs Den Depth).
Proof.
  unfold Anis_Backus_log.
  cl; [apply sc_np_map2; intros; sc|intro G; cbv beta].
  cl; [apply sc_np_map2; intros; sc|intro a; cbv beta].
  cl; [apply sc_np_map2; intros; sc|intro lamda; cbv beta zeta].
  rewrite sc_np_diff. eapply (sc_bind0 u); [reflexivity|apply sc_fsum|intro s; cbv beta].
  rewrite (sc_map u (fun t => fdiv NumPy t s) (fun t => fdiv NumPy t (inu u length_d s)) length_d dless (np_diff Depth)) by (try reflexivity; intros; sc).
  cl; [apply (units_Backus_n dless); reflexivity|intros ((((C11 & C33) & C13) & C44) & C66); cbv beta iota delta [in5]].
  cl; [apply sc_np_dot; dcomp|intro den; cbv beta]. reflexivity.
Qed.
(** ** Iterations *)
Lemma units_SC_step phi Ks Gs K G : EM_SC_step m phi (inu u stress Ks) (inu u stress Gs) (inu u stress K) (inu u stress G)
  = after (in2 u stress stress) (EM_SC_step m phi Ks Gs K G).
Proof. unfold EM_SC_step. scs. Qed.
Lemma units_EM_SC phi Ks Gs n : EM_SC m phi (inu u stress Ks) (inu u stress Gs) n = after (in2 u stress stress) (EM_SC m phi Ks Gs n).
Proof.
  unfold EM_SC. generalize (Z.to_nat n) as k. intros k.
  enough (H : forall K G, EM_SC_loop m k phi (inu u stress Ks) (inu u stress Gs) (inu u stress K) (inu u stress G)
    = after (in2 u stress stress) (EM_SC_loop m k phi Ks Gs K G)) by apply H.
  induction k as [|k I]; intros K G; [reflexivity|]. cbn [EM_SC_loop].
  cl; [apply units_SC_step|intros (K1 & G1); cbv beta iota delta [in2]; apply I].
Qed.
Lemma units_SC_flex_step f Km Ki Gm Gi K G :
  EM_SC_flex_step m f (inu u stress Km) (inu u stress Ki) (inu u stress Gm) (inu u stress Gi) (inu u stress K) (inu u stress G)
  = after (in2 u stress stress) (EM_SC_flex_step m f Km Ki Gm Gi K G).
Proof. unfold EM_SC_flex_step. scs. Qed.
Lemma units_EM_SC_flex f n Km Ki Gm Gi : EM_SC_flex m f n (inu u stress Km) (inu u stress Ki) (inu u stress Gm) (inu u stress Gi)
  = after (in2 u stress stress) (EM_SC_flex m f n Km Ki Gm Gi).
Proof.
  unfold EM_SC_flex. generalize (Z.to_nat n) as k. intros k.
  enough (H : forall K G, EM_SC_flex_loop m k f (inu u stress Km) (inu u stress Ki) (inu u stress Gm) (inu u stress Gi) (inu u stress K) (inu u stress G)
    = after (in2 u stress stress) (EM_SC_flex_loop m k f Km Ki Gm Gi K G)) by apply H.
  induction k as [|k I]; intros K G; [reflexivity|]. cbn [EM_SC_flex_loop].
  cl; [apply units_SC_flex_step|intros (K1 & G1); cbv beta iota delta [in2]; apply I].
Qed.
(** ** Spheroidal inclusions *)
Lemma units_PQ_spheroid m' Km Gm Ki Gi a t :
  EM_PQ_spheroid (fdiv m') (inu u stress Km) (inu u stress Gm) (inu u stress Ki) (inu u stress Gi) a t
  = EM_PQ_spheroid (fdiv m') Km Gm Ki Gi a t.
Proof. dless (after_dless2 u). unfold EM_PQ_spheroid. scs. Qed.
Lemma units_EM_PQ Km Gm Ki Gi a : EM_PQ m (inu u stress Km) (inu u stress Gm) (inu u stress Ki) (inu u stress Gi) a = EM_PQ m Km Gm Ki Gi a.
Proof.
  unfold EM_PQ. destruct (Req_EM_T a 1).
  - dless (after_dless2 u). scs.
  - dless (after_dless2 u). eapply (sc_bind0 u); [reflexivity|apply sc_dless|intro t]. rewrite inu_dless, after_dless2. apply units_PQ_spheroid.
Qed.
Lemma units_EM_DEM K G t Gi Ki a : EM_DEM m (inu u stress K) (inu u stress G) t (inu u stress Gi, inu u stress Ki, a)
  = after (in2 u stress stress) (EM_DEM m K G t (Gi, Ki, a)).
Proof.
  unfold EM_DEM. rewrite units_EM_PQ. destruct (EM_PQ m K G Ki Gi a) as [(P & Q)| |]; cbn [call]; try reflexivity. scs.
Qed.
Lemma units_EM_PQ_elem Km Gm Ki Gi a : EM_PQ_elem (inu u stress Km) (inu u stress Gm) (inu u stress Ki) (inu u stress Gi) a = EM_PQ_elem Km Gm Ki Gi a.
Proof.
  unfold EM_PQ_elem. dless (after_dless2 u). eapply (sc_bind0 u); [reflexivity|apply sc_dless|intro t]. rewrite inu_dless, units_PQ_spheroid.
  destruct (EM_PQ_spheroid _ _ _ _ _ _ _) as [(P & Q)| |]; cbn [call]; try reflexivity. destruct (Req_EM_T a 1).
  - scs.
  - rewrite after_dless2. reflexivity.
Qed.
Lemma units_EM_PQ_elems e Km Gm Ki Gi al : EM_PQ_elems e (inu u stress Km) (inu u stress Gm) (inl u stress Ki) (inl u stress Gi) al = EM_PQ_elems e Km Gm Ki Gi al.
Proof.
  revert Gi al. induction Ki as [|k Ki I]; intros [|g Gi] [|a al]; cbn [inl map EM_PQ_elems]; auto.
  rewrite units_EM_PQ_elem. fold (inl u stress Ki) (inl u stress Gi). rewrite I. reflexivity.
Qed.
Lemma units_EM_PQ_vectorize dt Km Gm Ki Gi al :
  EM_PQ_vectorize dt (inu u stress Km) (inu u stress Gm) (inl u stress Ki) (inl u stress Gi) al = EM_PQ_vectorize dt Km Gm Ki Gi al.
Proof.
  unfold EM_PQ_vectorize. rewrite units_EM_PQ_elems.
  replace (EM_PQ_misfit (inl u stress Ki) (inl u stress Gi) al) with (EM_PQ_misfit Ki Gi al) by (unfold EM_PQ_misfit; rewrite !inl_length; reflexivity).
  reflexivity.
Qed.
Lemma units_EM_Berryman_func dt K0 G0 K G X Al :
  EM_Berryman_func dt (inu u stress K0) (inu u stress G0) (inl u stress K) (inl u stress G) X Al
  = after (fun '(r, al) => (in2 u stress stress r, al)) (EM_Berryman_func dt K0 G0 K G X Al).
Proof.
  unfold EM_Berryman_func. rewrite units_EM_PQ_vectorize. destruct (EM_PQ_vectorize _ _ _ _ _ _) as [((P & Q) & al)| |]; cbn [call]; try reflexivity.
  assert (H : forall z l, np_bc fmul X (map (fun k => fsub k (inu u stress z)) (inl u stress l))
     = after (inl u stress) (np_bc fmul X (map (fun k => fsub k z) l))).
  { intros z l. rewrite (sc_map u (fun k => fsub k z) (fun k => fsub k (inu u stress z)) stress stress l) by (try reflexivity; intros; sc).
    rewrite <- (inl_dless u X) at 1. apply sc_np_bc. intros; sc. }
  assert (H2 : forall w p, np_bc fmul (inl u stress w) p = after (inl u stress) (np_bc fmul w p)).
  { intros w p. rewrite <- (inl_dless u p) at 1. apply sc_np_bc. intros; sc. }
  rewrite (H K0 K). destruct (np_bc fmul X (map (fun k => fsub k K0) K)) as [w| |]; cbn [after call]; try reflexivity.
  rewrite (H2 w P). destruct (np_bc fmul w P) as [w1| |]; cbn [after call]; try reflexivity.
  eapply (sc_bind0 u); [reflexivity|apply sc_fsum|intro e1; cbv beta].
  rewrite (H G0 G). destruct (np_bc fmul X (map (fun k => fsub k G0) G)) as [w2| |]; cbn [after call]; try reflexivity.
  rewrite (H2 w2 Q). destruct (np_bc fmul w2 Q) as [w3| |]; cbn [after call]; try reflexivity.
  eapply (sc_bind0 u); [reflexivity|apply sc_fsum|intro e2; cbv beta]. reflexivity.
Qed.
Lemma units_EM_OConnell_Budiansky_fl fs K0 G0 Kfl crd al :
  EM_OConnell_Budiansky_fl m fs (inu u stress K0) (inu u stress G0) (inu u stress Kfl) crd al
  = after (in2 u stress stress) (EM_OConnell_Budiansky_fl m fs K0 G0 Kfl crd al).
Proof.
  unfold EM_OConnell_Budiansky_fl.
  eapply (sc_bind0 u) with (d := dless); [reflexivity|sc|intro nu; cbv beta; rewrite inu_dless].
  eapply (sc_bind0 u) with (d := dless); [reflexivity|sc|intro w; cbv beta; rewrite inu_dless].
  destruct (fs _ _). scs.
Qed.
Lemma units_EM_hudson_ortho K G Ki Gi a c :
  EM_hudson_ortho m (inu u stress K) (inu u stress G) (inu u stress Ki) (inu u stress Gi) a c = after (inm u stress) (EM_hudson_ortho m K G Ki Gi a c).
Proof. destruct a as ((a0 & a1) & a2), c as ((c0 & c1) & c2). unfold EM_hudson_ortho, utils_write_matrix. scs. Qed.
End Fns.
