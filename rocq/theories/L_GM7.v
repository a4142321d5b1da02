(** * GM.py: the stresses [johnson] returns, against the path integrals of Norris and Johnson. *)
From Verif Require Import Fl Cx M_Utils M_EM M_GM Spec Spec3 Spec4 Spec10 RealLemmas L_EM1 L_GM1 L_GM2 L_GM5 L_GM6.
From Coquelicot Require Import Coquelicot.
Open Scope R_scope.

Local Ltac eqR := match goal with |- ?x = ?y => change (@eq R x y) end.
Lemma pow3_2 x : 0 <= x -> is_derive (fun t => t * sqrt t) x (3/2 * sqrt x).
Proof.
  intros [H|<-].
  - auto_derive; [lra|]. assert (S : 0 < sqrt x) by (apply sqrt_lt_R0; auto). assert (Q : sqrt x * sqrt x = x) by (apply sqrt_sqrt; lra).
    set (r := sqrt x) in *. clearbody r. rewrite <- Q. field. lra.
  - rewrite sqrt_0, Rmult_0_r. apply is_derive_Reals. intros eps He. exists (mkposreal (eps^2) ltac:(nra)). cbn [pos].
    intros h Hh Hd. rewrite Rplus_0_l, sqrt_0. destruct (Rle_dec h 0) as [L|L].
    + rewrite (sqrt_neg_0 h L). replace ((h * 0 - 0 * 0) / h - 0) with 0 by (field; auto). rewrite Rabs_R0; auto.
    + replace ((h * sqrt h - 0 * 0) / h - 0) with (sqrt h) by (field; auto). rewrite Rabs_pos_eq by apply sqrt_pos.
      rewrite Rabs_pos_eq in Hd by lra. rewrite <- (sqrt_pow2 eps) by lra. apply sqrt_lt_1; nra.
Qed.
Lemma root_cont p q c t : 0 <= p + t * q -> continuous (fun t => 3/2 * sqrt (p + t * q) * c) t.
Proof.
  intros H. apply continuity_pt_filterlim.
  apply continuity_pt_mult; [apply continuity_pt_mult|]; [apply continuity_pt_const; intros ? ?; reflexivity| |apply continuity_pt_const; intros ? ?; reflexivity].
  apply (continuity_pt_comp (fun t => p + t * q) sqrt).
  - apply derivable_continuous_pt. reg.
  - apply continuity_pt_sqrt. exact H.
Qed.
Lemma scal_int (k : R) (f : R -> R) : ex_RInt f 0 1 -> k * RInt f 0 1 = RInt (fun t => k * f t) 0 1.
Proof. intros H. symmetry. apply (RInt_scal (V := R_CompleteNormedModule) f 0 1 k H). Qed.
(** Loading from [p] to [p+q]. *)
Lemma load_int p q : 0 <= p -> 0 <= q ->
  RInt (fun t => 3/2 * sqrt (p + t * q) * q) 0 1 = (p + q) * sqrt (p + q) - p * sqrt p.
Proof.
  intros Hp Hq. apply is_RInt_unique.
  replace ((p + q) * sqrt (p + q) - p * sqrt p) with (minus ((p + 1 * q) * sqrt (p + 1 * q)) ((p + 0 * q) * sqrt (p + 0 * q)))
    by (unfold minus, plus, opp; simpl; rewrite Rmult_1_l, Rmult_0_l, Rplus_0_r; ring).
  apply (is_RInt_derive (fun t => (p + t * q) * sqrt (p + t * q))).
  - intros t Ht. rewrite Rmin_left, Rmax_right in Ht by lra. assert (0 <= t * q) by (apply Rmult_le_pos; lra).
    evar_last. { apply (is_derive_comp (fun u => u * sqrt u) (fun t => p + t * q)); [apply pow3_2; lra|]. auto_derive; [exact I|reflexivity]. }
    unfold scal; simpl; unfold mult; simpl. ring.
  - intros t Ht. rewrite Rmin_left, Rmax_right in Ht by lra.
    apply root_cont. assert (0 <= t * q) by (apply Rmult_le_pos; lra). lra.
Qed.
Lemma tangential_val p a b x : 0 < a -> 0 < b -> 0 <= x ->
  x^2 * nj_tangential p a b x =
  match p with Together => x^2 * (b * sqrt (a + b * x^2)) | UniIso => x^2 * (b * (sqrt b * x)) | IsoUni => nj_normal a b x - a * sqrt a end.
Proof.
  intros Ha Hb Hx. assert (0 <= b * x^2) by (apply Rmult_le_pos; [lra|apply pow2_ge_0]).
  destruct p; unfold nj_tangential, nj_normal.
  - f_equal. destruct (Req_dec (a + b * x^2) 0) as [E|N]; [lra|].
    replace (RInt _ 0 1) with (b / (a + b * x^2) * RInt (fun t => 3/2 * sqrt (0 + t * (a + b * x^2)) * (a + b * x^2)) 0 1).
    + eqR. rewrite load_int by lra. rewrite Rplus_0_l, sqrt_0. field. auto.
    + rewrite scal_int.
      * apply RInt_ext. intros t _. simpl. eqR.
        replace (0 + t * (a + b * (x * (x * 1)))) with (t * a + t * b * (x * (x * 1))) by ring. field. intro; apply N; simpl; lra.
      * apply (ex_RInt_continuous (V := R_CompleteNormedModule)). intros t Ht.
        rewrite Rmin_left, Rmax_right in Ht by lra. apply root_cont. assert (0 <= t * (a + b * x^2)) by (apply Rmult_le_pos; lra). lra.
  - destruct Hx as [Hx|<-]; [|ring]. f_equal.
    replace (RInt _ 0 1) with (/ x^2 * RInt (fun t => 3/2 * sqrt (0 + t * (b * x^2)) * (b * x^2)) 0 1).
    + eqR. rewrite load_int by lra. rewrite !Rplus_0_l, sqrt_0, sqrt_mult, sqrt_pow2 by lra || apply pow2_ge_0. field. lra.
    + rewrite scal_int.
      * apply RInt_ext. intros t _. simpl. eqR.
        replace (0 + t * (b * (x * (x * 1)))) with (t * b * (x * (x * 1))) by ring. field. lra.
      * apply (ex_RInt_continuous (V := R_CompleteNormedModule)). intros t Ht.
        rewrite Rmin_left, Rmax_right in Ht by lra. apply root_cont. assert (0 <= t * (b * x^2)) by (apply Rmult_le_pos; lra). lra.
  - rewrite <- (load_int a (b * x^2)) by lra. rewrite scal_int.
    + apply RInt_ext. intros t _. simpl. eqR.
      replace (a + t * b * (x * (x * 1))) with (a + t * (b * (x * (x * 1)))) by ring. ring.
    + apply (ex_RInt_continuous (V := R_CompleteNormedModule)). intros t Ht.
      rewrite Rmin_left, Rmax_right in Ht by lra.
      apply (continuous_ext (fun t => 3/2 * sqrt (a + t * (b * x^2)) * b)); [intros; rewrite (Rmult_assoc _ b); reflexivity|].
      apply root_cont. assert (0 <= t * (b * x^2)) by (apply Rmult_le_pos; lra). lra.
Qed.

Section S.
Variables (a b : R).
Hypotheses (Ha : 0 < a) (Hb : 0 < b).
Let al := sqrt (a / b).
Let al_pos : 0 < al.
Proof. apply sqrt_lt_R0, Rdiv_lt_0_compat; auto. Qed.
Let al2 : al^2 = a / b.
Proof. apply pow2_sqrt. left. apply Rdiv_lt_0_compat; auto. Qed.
Let W := b * sqrt b.
Lemma root_al x : sqrt (a + b * x^2) = sqrt b * sqrt (al^2 + x^2).
Proof.
  rewrite al2. rewrite <- sqrt_mult; [f_equal; field; lra|lra|].
  assert (0 < a / b) by (apply Rdiv_lt_0_compat; auto). assert (0 <= x^2) by apply pow2_ge_0. lra.
Qed.
Lemma normal_al x : nj_normal a b x = W * ((al^2 + x^2) * sqrt (al^2 + x^2)).
Proof. unfold nj_normal, W. rewrite root_al, al2. field. lra. Qed.
Lemma a_al : a * sqrt a = W * al^3.
Proof.
  assert (E := normal_al 0). unfold nj_normal in E. replace (a + b * 0^2) with a in E by ring. rewrite E.
  replace (al^2 + 0^2) with (al^2) by ring. rewrite sqrt_pow2 by (left; exact al_pos). ring.
Qed.
Let ie k := int_ex al al_pos k.
(** Integrals of polynomials times the root. *)
Lemma lin3 (c0 c2 c4 : R) : RInt (fun x => c0 * (x^0 * sqrt (al^2 + x^2)) + (c2 * (x^2 * sqrt (al^2 + x^2)) + c4 * (x^4 * sqrt (al^2 + x^2)))) 0 1
  = c0 * nj_I 0 al + c2 * nj_I 2 al + c4 * nj_I 4 al.
Proof.
  apply is_RInt_unique. replace (c0 * nj_I 0 al + c2 * nj_I 2 al + c4 * nj_I 4 al) with
    (plus (scal c0 (nj_I 0 al)) (plus (scal c2 (nj_I 2 al)) (scal c4 (nj_I 4 al)))) by (unfold plus, scal; simpl; unfold mult; simpl; ring).
  apply (is_RInt_plus (V := R_NormedModule)); [|apply (is_RInt_plus (V := R_NormedModule))]; apply (is_RInt_scal (V := R_NormedModule));
    apply (RInt_correct (V := R_CompleteNormedModule)), ie.
Qed.
Lemma int_n33 : RInt (fun x => x^2 * nj_normal a b x) 0 1 = W * (al^2 * nj_I 2 al + nj_I 4 al).
Proof.
  rewrite (RInt_ext _ (fun x => 0 * (x^0 * sqrt (al^2 + x^2)) + (W * al^2 * (x^2 * sqrt (al^2 + x^2)) + W * (x^4 * sqrt (al^2 + x^2))))).
  - rewrite lin3. eqR. ring.
  - intros x _. rewrite normal_al. eqR. ring.
Qed.
Lemma int_n11 : RInt (fun x => (1 - x^2) * nj_normal a b x) 0 1 = W * (al^2 * nj_I 0 al + (1 - al^2) * nj_I 2 al - nj_I 4 al).
Proof.
  rewrite (RInt_ext _ (fun x => W * al^2 * (x^0 * sqrt (al^2 + x^2)) + (W * (1 - al^2) * (x^2 * sqrt (al^2 + x^2)) + - W * (x^4 * sqrt (al^2 + x^2))))).
  - rewrite lin3. eqR. ring.
  - intros x _. rewrite normal_al. eqR. ring.
Qed.
Lemma int_t p : RInt (fun x => x^2 * (1 - x^2) * nj_tangential p a b x) 0 1 =
  W * match p with Together => nj_I 2 al - nj_I 4 al | UniIso => 1/12
      | IsoUni => al^2 * nj_I 0 al + (1 - al^2) * nj_I 2 al - nj_I 4 al - 2 * al^3 / 3 end.
Proof.
  assert (E : forall x, 0 < x < 1 -> x^2 * (1 - x^2) * nj_tangential p a b x = (1 - x^2) * (x^2 * nj_tangential p a b x)) by (intros; ring).
  rewrite (RInt_ext _ (fun x => (1 - x^2) * (x^2 * nj_tangential p a b x))) by (intros x; rewrite Rmin_left, Rmax_right by lra; intros; apply E; lra).
  destruct p.
  - rewrite (RInt_ext _ (fun x => 0 * (x^0 * sqrt (al^2 + x^2)) + (W * (x^2 * sqrt (al^2 + x^2)) + - W * (x^4 * sqrt (al^2 + x^2))))).
    + rewrite lin3. eqR. ring.
    + intros x. rewrite Rmin_left, Rmax_right by lra. intros Hx. rewrite tangential_val by lra. rewrite root_al. unfold W. eqR. ring.
  - apply is_RInt_unique. apply (is_RInt_ext (fun x => W * (x^3 - x^5))).
    { intros x. rewrite Rmin_left, Rmax_right by lra. intros Hx. rewrite tangential_val by lra. unfold W. eqR. ring. }
    replace (W * (1/12)) with (minus (W * (1^4 / 4 - 1^6 / 6)) (W * (0^4 / 4 - 0^6 / 6))) by (unfold minus, plus, opp; simpl; field).
    apply (is_RInt_derive (fun x => W * (x^4 / 4 - x^6 / 6))).
    + intros x _. auto_derive; [exact I|]. field.
    + intros x _. apply (ex_derive_continuous (fun x => W * (x^3 - x^5))). auto_derive. exact I.
  - rewrite (RInt_ext _ (fun x => (1 - x^2) * nj_normal a b x - (1 - x^2) * (W * al^3))).
    2: { intros x. rewrite Rmin_left, Rmax_right by lra. intros Hx. rewrite tangential_val by lra. rewrite a_al. eqR. ring. }
    rewrite (RInt_minus (V := R_CompleteNormedModule) (fun x => (1 - x^2) * nj_normal a b x) (fun x => (1 - x^2) * (W * al^3))).
    + rewrite int_n11. replace (RInt (fun x => (1 - x^2) * (W * al^3)) 0 1) with (2/3 * (W * al^3)).
      * unfold minus, plus, opp; simpl. field.
      * symmetry. apply is_RInt_unique.
        replace (2/3 * (W * al^3)) with (minus ((1 - 1^3/3) * (W * al^3)) ((0 - 0^3/3) * (W * al^3))) by (unfold minus, plus, opp; simpl; field).
        apply (is_RInt_derive (fun x => (x - x^3/3) * (W * al^3))).
        -- intros x _. auto_derive; [exact I|]. field.
        -- intros x _. apply (ex_derive_continuous (fun x => (1 - x^2) * (W * al^3))). auto_derive. exact I.
    + apply (ex_RInt_continuous (V := R_CompleteNormedModule)). intros x _.
      apply (continuous_ext (fun x => (1 - x^2) * (W * ((al^2 + x^2) * sqrt (al^2 + x^2))))); [intros; rewrite normal_al; reflexivity|].
      apply (ex_derive_continuous (fun x => (1 - x^2) * (W * ((al^2 + x^2) * sqrt (al^2 + x^2))))). auto_derive.
      assert (0 < al^2) by (apply pow_lt; auto). assert (0 <= x^2) by apply pow2_ge_0. simpl in *. lra.
    + apply (ex_RInt_continuous (V := R_CompleteNormedModule)). intros x _.
      apply (ex_derive_continuous (fun x => (1 - x^2) * (W * al^3))). auto_derive. exact I.
Qed.
End S.

(** ** How far the code's integrals are off *)
Definition j_off (al : R) : R := al^2 / 2 * ln ((al + sqrt (1 + al^2)) / (1 + sqrt (1 + al^2))).
Lemma off_I al : 0 < al ->
  jI0 al = nj_I 0 al + j_off al /\ jI2 al = nj_I 2 al - al^2 / 4 * j_off al /\ jI4 al = nj_I 4 al + al^4 / 8 * j_off al.
Proof.
  intros H. assert (E0 : jI0 al = nj_I 0 al + j_off al).
  { rewrite nj_I0 by assumption. unfold jI0, j_off. assert (0 < al^2) by (apply pow_lt, H).
    assert (S : 0 < sqrt (1 + al^2)) by (apply sqrt_lt_R0; lra). set (s := sqrt (1 + al^2)) in *.
    replace (1 + s / al) with ((al + s) / al) by (field; lra). assert (LD : forall u v, 0 < u -> 0 < v -> ln (u / v) = ln u - ln v).
    { intros u v Hu Hv. unfold Rdiv. rewrite ln_mult by (try apply Rinv_0_lt_compat; lra). rewrite ln_Rinv by lra. ring. }
    rewrite !LD by lra. field. }
  assert (A := nj_I2 al H). assert (B := nj_I4 al H).
  assert (E2 : jI2 al = nj_I 2 al - al^2 / 4 * j_off al) by (unfold jI2; rewrite E0; lra).
  split; [exact E0|]. split; [exact E2|]. unfold jI4. rewrite E2.
  replace (al^4 / 8 * j_off al) with (1/6 * (3 * al^2 * (al^2 / 4 * j_off al))) by field. lra.
Qed.
Lemma off_zero al : 0 < al -> (j_off al = 0 <-> al = 1).
Proof.
  intros H. rewrite <- (jI0_exact al H). destruct (off_I al H) as [E _]. rewrite E. lra.
Qed.
Section Dev.
Variables (K0 G0 n phi e ea : R).
Hypotheses (HK : 0 < K0) (HG : 0 < G0) (Hn : 0 < n) (Hp : 0 <= phi < 1) (He : e < 0) (Hea : ea < 0).
Let al := sqrt (e / ea).
Let d := j_off al.
Let g := nj_gamma K0 G0 n phi e / al.
Let B := nj_B K0 G0.
Let C := nj_C K0 G0.
Let Cn := nj_Cn K0 G0.
Let Ct := nj_Ct K0 G0.
Let S := (1 - phi) * n * (- ea * sqrt (- ea)) / (4 * PI).
Let alp : 0 < al. Proof. exact (al_pos e ea He Hea). Qed.
Lemma dev_moduli :
  j11 K0 G0 n phi e ea = g * (4 * B / 3 + 2 * C / 5 + al^2 * (2 * B / 15 + C / 35)) /\
  j33 K0 G0 n phi e ea = nj_C33 K0 G0 n phi e al + g * d * al^2 * (C * al^2 / 4 - B) /\
  j13 K0 G0 n phi e ea = nj_C13 K0 G0 n phi e al - g * d * C * (al^2 / 4 + al^4 / 8) /\
  j44 K0 G0 n phi e ea = nj_C44 K0 G0 n phi e al + g * d * (B / 2 * (1 - al^2 / 4) - C * (al^2 / 4 + al^4 / 8)) /\
  j66 K0 G0 n phi e ea = nj_C66 K0 G0 n phi e al + g * d * (B * (1 + al^2 / 4) + C / 4 * (1 + al^2 / 2 + al^4 / 8)).
Proof.
  destruct (off_I al alp) as (E0 & E2 & E4).
  unfold j11, j33, j13, j44, j66, nj_C33, nj_C13, nj_C44, nj_C66. rewrite (nj_C_eq K0 G0 HK HG), (nj_B_eq K0 G0 HK HG).
  fold al. rewrite <- (al_sq e ea He Hea).
  change (3 / 32 * (4 * G0 / (1 - poisson K0 G0)) * (8 * G0 / (2 - poisson K0 G0)) * n * (1 - phi) * sqrt (- e)) with (nj_gamma K0 G0 n phi e).
  fold al. rewrite E0, E2, E4. fold d. unfold g, B, C.
  generalize (nj_gamma K0 G0 n phi e) (nj_B K0 G0) (nj_C K0 G0) (nj_I 0 al) (nj_I 2 al) (nj_I 4 al) d.
  intros. assert (al <> 0) by lra. split; [|split; [|split; [|split]]]; field; auto.
Qed.
Lemma al_opp : sqrt (- e / - ea) = al.
Proof. unfold al. f_equal. field. lra. Qed.
Lemma T_val : - Rpower (- e) (3/2) * (1 - phi) * n / (4 * PI * al^3) = - S.
Proof.
  rewrite Rpower_3_2 by lra. rewrite (a_al (- e) (- ea)) by lra. rewrite al_opp. unfold S.
  assert (0 < PI) by apply PI_RGT_0. field. split; lra.
Qed.
Let k := 3 * al^2 / 4 + al^4 / 8.
Let A := nj_across (- e) (- ea).
Let S' := (1 - phi) * n / (4 * PI).
Lemma dev_stresses :
  js33 K0 G0 n phi e ea = nj_sigma33 Together K0 G0 n phi (- e) (- ea) + 2 * S * d * (Ct * (al^2 / 4 + al^4 / 8) + Cn * (al^4 / 8)) /\
  js11 K0 G0 n phi e ea = nj_sigma11 Together K0 G0 n phi (- e) (- ea) - S * d * (Ct * (al^2 / 4 + al^4 / 8) + Cn * k) /\
  js33u K0 G0 n phi e ea = nj_sigma33 UniIso K0 G0 n phi (- e) (- ea) + 2 * S * d * (Cn * (al^4 / 8)) /\
  js11u K0 G0 n phi e ea = nj_sigma11 UniIso K0 G0 n phi (- e) (- ea) - S * d * (Cn * k) /\
  js33i K0 G0 n phi e ea = nj_sigma33 IsoUni K0 G0 n phi (- e) (- ea) - 2 * S * d * (Ct * k - Cn * (al^4 / 8)) /\
  js11i K0 G0 n phi e ea = nj_sigma11 IsoUni K0 G0 n phi (- e) (- ea) + S * d * k * Ct * (1 + Cn) + S' * A * Cn * (1 + Ct).
Proof.
  destruct (off_I al alp) as (E0 & E2 & E4).
  unfold js33, js11, js33u, js11u, js33i, js11i, nj_sigma33, nj_sigma11, A, nj_across. fold al. rewrite !T_val.
  rewrite !int_n33, !int_n11, !int_t by lra. rewrite !al_opp, E0, E2, E4. fold d.
  change (4 * G0 / (1 - poisson K0 G0)) with Cn. change (8 * G0 / (2 - poisson K0 G0)) with Ct. fold Cn Ct. unfold S, S', k.
  assert (P := PI_RGT_0). set (W := - ea * sqrt (- ea)). clearbody d.
  generalize Cn Ct (nj_I 0 al) (nj_I 2 al) (nj_I 4 al) W. intros.
  split; [|split; [|split; [|split; [|split]]]]; field; lra.
Qed.
Lemma al_one : al = 1 <-> e = ea.
Proof.
  split; intros H.
  - assert (Q := al_sq e ea He Hea). fold al in Q. rewrite H in Q. assert (X : e / ea * ea = e) by (field; lra). rewrite <- Q in X. lra.
  - unfold al. rewrite H. replace (ea / ea) with 1 by (field; lra). apply sqrt_1.
Qed.
Lemma c66_iff : 2 * G0 <= 3 * K0 -> (j66 K0 G0 n phi e ea = nj_C66 K0 G0 n phi e al <-> e = ea).
Proof.
  intros Hnu. destruct dev_moduli as (_ & _ & _ & _ & E). rewrite E, <- al_one, <- (off_zero al alp). fold d.
  assert (P1 := nj_gamma_pos K0 G0 n phi e HK HG Hn Hp He). assert (P2 := nj_B_pos K0 G0 HK HG). assert (P3 := nj_C_nonneg K0 G0 HK HG Hnu).
  fold B in P2. fold C in P3. assert (0 < g) by (apply Rdiv_lt_0_compat; auto).
  assert (0 < al^2) by (apply pow_lt, alp). assert (0 < al^4) by (apply pow_lt, alp).
  assert (0 < B * (1 + al^2 / 4)) by (apply Rmult_lt_0_compat; lra).
  assert (0 <= C / 4 * (1 + al^2 / 2 + al^4 / 8)) by (apply Rmult_le_pos; lra).
  split; [intros X|intros ->; lra].
  assert (Y : g * d * (B * (1 + al^2 / 4) + C / 4 * (1 + al^2 / 2 + al^4 / 8)) = 0) by lra.
  apply Rmult_integral in Y. destruct Y as [Y|Y]; [|lra]. apply Rmult_integral in Y. destruct Y; [lra|auto].
Qed.
End Dev.
