(** * Fluid.py: Brown-Korringa. *)
From Verif Require Import Fl Cx M_Utils M_EM M_Anis M_Fluid Spec Spec2 RealLemmas L_Utils L_Anis L_Fluid1.
Open Scope R_scope.

Definition isoc (K G : R) : rmat := ofrows
  [[1/(9*K) + 1/(3*G); 1/(9*K) - 1/(6*G); 1/(9*K) - 1/(6*G); 0; 0; 0];
   [1/(9*K) - 1/(6*G); 1/(9*K) + 1/(3*G); 1/(9*K) - 1/(6*G); 0; 0; 0];
   [1/(9*K) - 1/(6*G); 1/(9*K) - 1/(6*G); 1/(9*K) + 1/(3*G); 0; 0; 0];
   [0; 0; 0; 1/G; 0; 0]; [0; 0; 0; 0; 1/G; 0]; [0; 0; 0; 0; 0; 1/G]].
Lemma isoc_inverse K G : K <> 0 -> G <> 0 -> is_inverse (iso K G) (isoc K G).
Proof.
  intros HK HG. split; intros i j Hi Hj; fin6 i Hi; fin6 j Hj; unfold mmul, sum6, iso, isoc, ofrows, ident; cbn; field; auto.
Qed.
Lemma isoc_sym K G : symmetric (isoc K G).
Proof. intros i j Hi Hj; fin6 i Hi; fin6 j Hj; reflexivity. Qed.

Definition col3 (S : rmat) (j : nat) : R := S 0%nat j + S 1%nat j + S 2%nat j.
Lemma col3_isoc K G j : K <> 0 -> G <> 0 -> (j < 6)%nat -> col3 (isoc K G) j = hydro j / (3 * K).
Proof. intros HK HG Hj. fin6 j Hj; unfold col3, isoc, ofrows, hydro; cbn; field; auto. Qed.

Section BK.
Variables (K0 Kf phi : R).
Definition bks (S : rmat) (j : nat) : R := col3 S j - hydro j / (3 * K0).
Definition bkt := (1 / Kf - 1 / K0) * phi.
Definition beta (S : rmat) := col3 S 0 + col3 S 1 + col3 S 2.
Definition bkd (S : rmat) := bkt + (beta S - 1 / K0).
Definition bkd' (S : rmat) := bkt - (beta S - 1 / K0).
Definition d2s (S : rmat) : rmat := fun i j => S i j - bks S i * bks S j / bkd S.
Definition s2d (S : rmat) : rmat := fun i j => S i j + bks S i * bks S j / bkd' S.
Lemma bks_ext S S' j : meq6 S S' -> (j < 6)%nat -> bks S j = bks S' j.
Proof. intros E Hj. unfold bks, col3. rewrite !(E _ j) by lia. reflexivity. Qed.
Lemma beta_ext S S' : meq6 S S' -> beta S = beta S'.
Proof. intros E. unfold beta, col3. rewrite !(E _ _) by lia. reflexivity. Qed.
Lemma d2s_ext S S' : meq6 S S' -> meq6 (d2s S) (d2s S').
Proof. intros E i j Hi Hj. unfold d2s, bkd. rewrite (bks_ext S S'), (bks_ext S S' j), (beta_ext S S'), (E i j) by auto. reflexivity. Qed.
Lemma s2d_ext S S' : meq6 S S' -> meq6 (s2d S) (s2d S').
Proof. intros E i j Hi Hj. unfold s2d, bkd'. rewrite (bks_ext S S'), (bks_ext S S' j), (beta_ext S S'), (E i j) by auto. reflexivity. Qed.
Lemma beta_bks S : K0 <> 0 -> bks S 0 + bks S 1 + bks S 2 = beta S - 1 / K0.
Proof. intros. unfold bks, beta, hydro. cbn. field. auto. Qed.
Lemma bks_d2s S j : K0 <> 0 -> bkd S <> 0 -> bks (d2s S) j = bks S j * (bkt / bkd S).
Proof.
  intros H0 Hd. transitivity (bks S j - (bks S 0 + bks S 1 + bks S 2) * bks S j / bkd S).
  - change (bks (d2s S) j) with ((S 0%nat j - bks S 0 * bks S j / bkd S) + (S 1%nat j - bks S 1 * bks S j / bkd S)
      + (S 2%nat j - bks S 2 * bks S j / bkd S) - hydro j / (3 * K0)).
    transitivity ((S 0%nat j + S 1%nat j + S 2%nat j - hydro j / (3 * K0)) - (bks S 0 + bks S 1 + bks S 2) * bks S j / bkd S); [field; auto|reflexivity].
  - rewrite beta_bks by auto. assert (E : bkt = bkd S - (beta S - 1 / K0)) by (unfold bkd; ring). rewrite E. field. auto.
Qed.
Lemma beta_d2s S : K0 <> 0 -> bkd S <> 0 -> beta (d2s S) - 1 / K0 = (beta S - 1 / K0) * (bkt / bkd S).
Proof.
  intros H0 Hd. rewrite <- !beta_bks by auto. rewrite !bks_d2s by auto. ring.
Qed.
Lemma bkd'_d2s S : K0 <> 0 -> bkd S <> 0 -> bkd' (d2s S) = bkt^2 / bkd S.
Proof.
  intros H0 Hd. unfold bkd'. rewrite beta_d2s by auto.
  replace (beta S - 1 / K0) with (bkd S - bkt) by (unfold bkd; ring). field. auto.
Qed.
Lemma s2d_d2s S : K0 <> 0 -> bkd S <> 0 -> bkt <> 0 -> meq6 (s2d (d2s S)) S.
Proof.
  intros H0 Hd Ht i j Hi Hj. unfold s2d. rewrite !bks_d2s, bkd'_d2s by auto. unfold d2s. field. auto.
Qed.
Lemma bks_s2d S j : K0 <> 0 -> bkd' S <> 0 -> bks (s2d S) j = bks S j * (bkt / bkd' S).
Proof.
  intros H0 Hd. transitivity (bks S j + (bks S 0 + bks S 1 + bks S 2) * bks S j / bkd' S).
  - change (bks (s2d S) j) with ((S 0%nat j + bks S 0 * bks S j / bkd' S) + (S 1%nat j + bks S 1 * bks S j / bkd' S)
      + (S 2%nat j + bks S 2 * bks S j / bkd' S) - hydro j / (3 * K0)).
    transitivity ((S 0%nat j + S 1%nat j + S 2%nat j - hydro j / (3 * K0)) + (bks S 0 + bks S 1 + bks S 2) * bks S j / bkd' S); [field; auto|reflexivity].
  - rewrite beta_bks by auto. assert (E : bkt = bkd' S + (beta S - 1 / K0)) by (unfold bkd'; ring). rewrite E. field. auto.
Qed.
Lemma beta_s2d S : K0 <> 0 -> bkd' S <> 0 -> beta (s2d S) - 1 / K0 = (beta S - 1 / K0) * (bkt / bkd' S).
Proof.
  intros H0 Hd. rewrite <- !beta_bks by auto. rewrite !bks_s2d by auto. ring.
Qed.
Lemma bkd_s2d S : K0 <> 0 -> bkd' S <> 0 -> bkd (s2d S) = bkt^2 / bkd' S.
Proof.
  intros H0 Hd. unfold bkd. rewrite beta_s2d by auto.
  replace (beta S - 1 / K0) with (bkt - bkd' S) by (unfold bkd'; ring). field. auto.
Qed.
Lemma d2s_s2d S : K0 <> 0 -> bkd' S <> 0 -> bkt <> 0 -> meq6 (d2s (s2d S)) S.
Proof.
  intros H0 Hd Ht i j Hi Hj. unfold d2s. rewrite !bks_s2d, bkd_s2d by auto. unfold s2d. field. auto.
Qed.
Lemma d2s_sym S : symmetric S -> symmetric (d2s S).
Proof. intros H i j Hi Hj. unfold d2s. rewrite (H i j) by auto. unfold Rdiv. ring. Qed.
(** Saturated compliance as the response of the undrained test. *)
Lemma undrained_bk Sd S0 G0 : K0 <> 0 -> G0 <> 0 -> symmetric Sd -> meq6 S0 (isoc K0 G0) -> bkd Sd <> 0 -> Kf <> 0 -> forall s,
  (exists p e, undrained_aniso Sd S0 K0 Kf phi s p e) /\
  forall p e, undrained_aniso Sd S0 K0 Kf phi s p e -> forall i, (i < 6)%nat -> e i = sum6 (fun j => d2s Sd i j * s j).
Proof.
  intros H0 HG Hs HS Hd Hf s.
  set (sps := sum6 (fun j => bks Sd j * s j)).
  assert (HC : forall p, sum3 (fun i => sum6 (fun j => (Sd i j - S0 i j) * (s j - p * hydro j))) = sps - p * (beta Sd - 1 / K0)).
  { intros p. rewrite <- beta_bks by auto. unfold sps.
    assert (E : forall j, (j < 6)%nat -> bks Sd j = (Sd 0%nat j - S0 0%nat j) + (Sd 1%nat j - S0 1%nat j) + (Sd 2%nat j - S0 2%nat j)).
    { intros j Hj. unfold bks. rewrite <- (col3_isoc K0 G0) by auto. unfold col3. rewrite !(HS _ j) by lia. ring. }
    unfold sum3, sum6. rewrite !E by lia. unfold hydro; cbn. ring. }
  assert (HE : forall p i, (i < 6)%nat -> sum6 (fun j => Sd i j * (s j - p * hydro j)) + p * sum6 (fun j => S0 i j * hydro j)
     = sum6 (fun j => Sd i j * s j) - p * bks Sd i).
  { intros p i Hi. unfold bks. rewrite <- (col3_isoc K0 G0) by auto. unfold col3, sum6, hydro; cbn [Nat.ltb Nat.leb].
    rewrite !(HS i _) by lia. rewrite (isoc_sym K0 G0 0%nat i), (isoc_sym K0 G0 1%nat i), (isoc_sym K0 G0 2%nat i) by lia.
    rewrite (Hs 0%nat i), (Hs 1%nat i), (Hs 2%nat i) by lia. ring. }
  split.
  - exists (sps / bkd Sd). eexists. split; [intros i Hi; reflexivity|]. rewrite HC.
    set (p := sps / bkd Sd). assert (E : p * bkd Sd = sps) by (unfold p; field; auto).
    rewrite <- E. unfold bkd, bkt. field. auto.
  - intros p e (E1 & E2) i Hi. rewrite HC in E2. rewrite E1, HE by auto.
    assert (E : p * bkd Sd = sps).
    { unfold bkd, bkt. transitivity (phi * (p / Kf - p / K0) + p * (beta Sd - 1 / K0)); [field; auto|]. rewrite E2. ring. }
    assert (Ep : p = sps / bkd Sd) by (rewrite <- E; field; auto). rewrite Ep. unfold sps, d2s, sum6. field. auto.
Qed.
(** Stiffness form (anisotropic Gassmann) by a rank-one update. *)
Definition aw (C : rmat) (i : nat) : R := hydro i - sum3 (fun k => C i k) / (3 * K0).
Definition bkg (C : rmat) := phi / Kf + (1 - phi) / K0 - iso_K C / K0^2.
Definition csat (C : rmat) : rmat := fun i j => C i j + aw C i * aw C j / bkg C.
End BK.
Lemma sum6_scal c f : sum6 (fun k => c * f k) = c * sum6 f. Proof. unfold sum6; ring. Qed.
Lemma sum6_plus f g : sum6 (fun k => f k + g k) = sum6 f + sum6 g. Proof. unfold sum6; ring. Qed.
Lemma sum6_ext f g : (forall k, (k < 6)%nat -> f k = g k) -> sum6 f = sum6 g.
Proof. intros H. unfold sum6. rewrite !H by lia. reflexivity. Qed.
(** Rank-one update of an inverse pair of symmetric matrices. *)
Lemma rank_one_inverse C S (a s : nat -> R) g d : is_inverse C S -> symmetric C -> symmetric S -> g <> 0 -> d <> 0 ->
  (forall i, (i < 6)%nat -> sum6 (fun k => C i k * s k) = a i) ->
  sum6 (fun k => a k * s k) = d - g ->
  is_inverse (fun i j => C i j + a i * a j / g) (fun i j => S i j - s i * s j / d).
Proof.
  intros (I1 & I2) HC HS Hg Hd Ha Hs.
  assert (Hb : forall i, (i < 6)%nat -> sum6 (fun k => S i k * a k) = s i).
  { intros i Hi. transitivity (sum6 (fun k => S i k * sum6 (fun l => C k l * s l))).
    - apply sum6_ext. intros k Hk. rewrite Ha by auto. reflexivity.
    - transitivity (sum6 (fun l => mmul S C i l * s l)); [unfold mmul, sum6; ring|].
      transitivity (sum6 (fun l => ident i l * s l)); [apply sum6_ext; intros; rewrite I2 by auto; reflexivity|].
      fin6 i Hi; unfold sum6, ident; cbn; ring. }
  split; intros i j Hi Hj; unfold mmul.
  - transitivity (sum6 (fun k => C i k * S k j) - sum6 (fun k => C i k * s k) * s j / d
       + a i / g * sum6 (fun k => S k j * a k) - a i * s j / (g * d) * sum6 (fun k => a k * s k)).
    { unfold sum6. field. auto. }
    rewrite Ha, Hs by auto. replace (sum6 (fun k => S k j * a k)) with (s j).
    2:{ rewrite <- Hb by auto. apply sum6_ext. intros. rewrite (HS j k) by auto. reflexivity. }
    change (sum6 (fun k => C i k * S k j)) with (mmul C S i j). rewrite I1 by auto. field. auto.
  - transitivity (sum6 (fun k => S i k * C k j) + sum6 (fun k => S i k * a k) * a j / g
       - s i / d * sum6 (fun k => C k j * s k) - s i * a j / (g * d) * sum6 (fun k => a k * s k)).
    { unfold sum6. field. auto. }
    rewrite Hb, Hs by auto. replace (sum6 (fun k => C k j * s k)) with (a j).
    2:{ rewrite <- Ha by auto. apply sum6_ext. intros. rewrite (HC j k) by auto. reflexivity. }
    change (sum6 (fun k => S i k * C k j)) with (mmul S C i j). rewrite I2 by auto. field. auto.
Qed.
Lemma C_bks K0 C S i : K0 <> 0 -> is_inverse C S -> symmetric S -> (i < 6)%nat ->
  sum6 (fun k => C i k * bks K0 S k) = aw K0 C i.
Proof.
  intros H0 (I1 & _) HS Hi.
  transitivity (mmul C S i 0%nat + mmul C S i 1%nat + mmul C S i 2%nat - sum3 (fun k => C i k) / (3 * K0)).
  { unfold bks, col3, mmul, sum6, sum3, hydro; cbn [Nat.ltb Nat.leb].
    rewrite (HS 1%nat 0%nat), (HS 2%nat 0%nat), (HS 2%nat 1%nat) by lia.
    rewrite (HS 3%nat 0%nat), (HS 3%nat 1%nat), (HS 3%nat 2%nat) by lia.
    rewrite (HS 4%nat 0%nat), (HS 4%nat 1%nat), (HS 4%nat 2%nat) by lia.
    rewrite (HS 5%nat 0%nat), (HS 5%nat 1%nat), (HS 5%nat 2%nat) by lia. field; auto. }
  rewrite !I1 by lia. unfold aw, ident, hydro. fin6 i Hi; cbn [Nat.ltb Nat.leb Nat.eqb]; ring.
Qed.
Lemma csat_inverse K0 Kf phi C S : K0 <> 0 -> Kf <> 0 -> is_inverse C S -> symmetric C -> symmetric S ->
  bkg K0 Kf phi C <> 0 -> bkd K0 Kf phi S <> 0 -> is_inverse (csat K0 Kf phi C) (d2s K0 Kf phi S).
Proof.
  intros H0 Hf HI HC HS Hg Hd. unfold csat, d2s. apply rank_one_inverse; auto.
  - intros i Hi. apply C_bks; auto.
  - transitivity ((bks K0 S 0%nat + bks K0 S 1%nat + bks K0 S 2%nat)
       - (sum6 (fun k => C 0%nat k * bks K0 S k) + sum6 (fun k => C 1%nat k * bks K0 S k) + sum6 (fun k => C 2%nat k * bks K0 S k)) / (3 * K0)).
    { unfold aw, hydro, sum6, sum3; cbn [Nat.ltb Nat.leb].
      rewrite (HC 1%nat 0%nat), (HC 2%nat 0%nat), (HC 2%nat 1%nat) by lia.
      rewrite (HC 3%nat 0%nat), (HC 3%nat 1%nat), (HC 3%nat 2%nat) by lia.
      rewrite (HC 4%nat 0%nat), (HC 4%nat 1%nat), (HC 4%nat 2%nat) by lia.
      rewrite (HC 5%nat 0%nat), (HC 5%nat 1%nat), (HC 5%nat 2%nat) by lia. field; auto. }
    rewrite !C_bks by (auto; lia). rewrite beta_bks by auto.
    unfold aw, bkd, bkt, bkg, iso_K, tensor, vgt, sum3, hydro; cbn [Nat.ltb Nat.leb]. field. auto.
Qed.

Section BKeval.
Variables (m : mode) (inv : np_inv_t) (K0 G0 phi : R).
Hypotheses (Hinv : inverts inv) (H0 : K0 <> 0) (HG : G0 <> 0).
Lemma fcol3_fin S j : (j < 6)%nat -> fcol3 (finmat S) j = Fin (col3 S j).
Proof. intros Hj. unfold fcol3. rewrite !mget_finmat by lia. rewrite !fadd_fin. reflexivity. Qed.
Lemma ftab6_fin f F : (forall i j, (i < 6)%nat -> (j < 6)%nat -> f i j = Fin (F i j)) -> ftab6 f = finmat F.
Proof.
  intros H. unfold ftab6, finmat, tab6. apply map_ext_in. intros i Hi. apply map_ext_in. intros j Hj.
  apply in_seq in Hi, Hj. apply H; lia.
Qed.
Lemma d2s_eval Kf S : Kf <> 0 -> bkd K0 Kf phi S <> 0 ->
  Fluid_Brown_Korringa_dry2sat m inv (finmat S) (Fin K0) (Fin G0) (Fin Kf) (Fin phi) = Ret (finmat (d2s K0 Kf phi S)).
Proof.
  intros Hf Hd. unfold Fluid_Brown_Korringa_dry2sat. rewrite !fcol3_fin by lia.
  repeat (first [fl1 | rewrite fdiv_fin by assumption]; cbv beta). rewrite write_iso_eval, call_ret.
  rewrite (Hinv _ _ (isoc_inverse K0 G0 H0 HG)), call_ret.
  repeat (first [fl1 | rewrite fdiv_fin by assumption]; cbv beta). f_equal. apply ftab6_fin. intros i j Hi Hj.
  rewrite mget_finmat, !fcol3_fin by auto. rewrite !fsub_fin, fmul_fin.
  rewrite !col3_isoc by auto. fold (bks K0 S i) (bks K0 S j).
  fold (beta S). fold (bkt K0 Kf phi). fold (bkd K0 Kf phi S). rewrite fdiv_fin by auto. rewrite fsub_fin. reflexivity.
Qed.
Lemma s2d_eval Kf S : Kf <> 0 -> bkd' K0 Kf phi S <> 0 ->
  Fluid_Brown_Korringa_sat2dry m inv (finmat S) (Fin K0) (Fin G0) (Fin Kf) (Fin phi) = Ret (finmat (s2d K0 Kf phi S)).
Proof.
  intros Hf Hd. unfold Fluid_Brown_Korringa_sat2dry. rewrite !fcol3_fin by lia.
  repeat (first [fl1 | rewrite fdiv_fin by assumption]; cbv beta). rewrite write_iso_eval, call_ret.
  rewrite (Hinv _ _ (isoc_inverse K0 G0 H0 HG)), call_ret.
  repeat (first [fl1 | rewrite fdiv_fin by assumption]; cbv beta). f_equal. apply ftab6_fin. intros i j Hi Hj.
  rewrite mget_finmat, !fcol3_fin by auto. rewrite !fsub_fin, fmul_fin.
  rewrite !col3_isoc by auto. fold (bks K0 S i) (bks K0 S j).
  fold (beta S). fold (bkt K0 Kf phi). fold (bkd' K0 Kf phi S). rewrite fdiv_fin by auto. rewrite fadd_fin. reflexivity.
Qed.
End BKeval.

(** ** Packages used by the theorems *)
Lemma ret_inj {A} (a b : A) : Ret a = Ret b -> a = b. Proof. congruence. Qed.
Section BKpack.
Variables (m : mode) (inv : np_inv_t) (K0 G0 phi : R).
Hypotheses (Hinv : inverts inv) (H0 : 0 < K0) (HG : 0 < G0) (Hp : 0 < phi).
Lemma beta_sum S : sum3 (fun i => sum3 (fun j => S i j)) = beta S.
Proof. unfold sum3, beta, col3. ring. Qed.
Lemma bkt_nonneg Kf : 0 < Kf <= K0 -> 0 <= bkt K0 Kf phi.
Proof.
  intros Hf. unfold bkt. assert (1 / K0 <= 1 / Kf) by (apply Rmult_le_compat_l; [lra|apply inv_le; lra]).
  apply Rmult_le_pos; lra.
Qed.
Lemma bkt_pos Kf : 0 < Kf < K0 -> 0 < bkt K0 Kf phi.
Proof.
  intros Hf. unfold bkt. assert (1 / K0 < 1 / Kf) by (apply Rmult_lt_compat_l; [lra|apply inv_lt; lra]).
  apply Rmult_lt_0_compat; lra.
Qed.
Lemma bkd_pos Kf S : 0 < Kf <= K0 -> 1 / K0 < beta S -> 0 < bkd K0 Kf phi S.
Proof. intros Hf Hb. assert (X := bkt_nonneg Kf Hf). unfold bkd. lra. Qed.
Lemma BK_undrained Kf Sd : 0 < Kf <= K0 -> symmetric Sd -> 1 / K0 < sum3 (fun i => sum3 (fun j => Sd i j)) ->
  exists Ssat, Fluid_Brown_Korringa_dry2sat m inv (finmat Sd) (Fin K0) (Fin G0) (Fin Kf) (Fin phi) = Ret (finmat Ssat) /\
  symmetric Ssat /\
  (forall C0 S0, utils_write_iso m (Fin K0) (Fin G0) = Ret (finmat C0) -> is_inverse C0 S0 -> forall s,
     (exists p e, undrained_aniso Sd S0 K0 Kf phi s p e) /\
     (forall p e, undrained_aniso Sd S0 K0 Kf phi s p e -> forall i, (i < 6)%nat -> e i = sum6 (fun j => Ssat i j * s j))) /\
  (forall s, energy Ssat s <= energy Sd s) /\
  (forall j, (j < 6)%nat -> (3 <= j)%nat -> sum3 (fun i => Sd i j) = 0 -> forall i, (i < 6)%nat -> Ssat i j = Sd i j).
Proof.
  intros Hf Hs Hb. rewrite beta_sum in Hb. assert (D := bkd_pos Kf Sd Hf Hb).
  exists (d2s K0 Kf phi Sd). split; [apply d2s_eval; auto; lra|]. split; [apply d2s_sym; auto|]. split; [|split].
  - intros C0 S0 E I. rewrite write_iso_eval in E. apply ret_inj, finmat_inj6 in E.
    apply undrained_bk with G0; auto; try lra.
    apply (inverse_unique C0 (iso K0 G0) S0 (isoc K0 G0)); auto.
    + apply meq6_sym; auto.
    + apply isoc_inverse; lra.
  - intros s. assert (E : energy (d2s K0 Kf phi Sd) s = energy Sd s - (sum6 (fun j => bks K0 Sd j * s j))^2 / bkd K0 Kf phi Sd).
    { unfold energy, d2s, sum6. field. lra. }
    rewrite E. assert (0 <= (sum6 (fun j => bks K0 Sd j * s j))^2 / bkd K0 Kf phi Sd); [|lra].
    apply Rmult_le_pos; [apply pow2_ge_0|left; apply Rinv_0_lt_compat; auto].
  - intros j Hj H3 Ez i Hi. unfold d2s. assert (Z : bks K0 Sd j = 0).
    { unfold bks. replace (hydro j) with 0 by (fin6 j Hj; try lia; reflexivity). 
      change (col3 Sd j) with (sum3 (fun i => Sd i j)). rewrite Ez. field. lra. }
    rewrite Z. field. lra.
Qed.
Lemma BK_roundtrip Kf Sd : 0 < Kf < K0 -> 1 / K0 < sum3 (fun i => sum3 (fun j => Sd i j)) ->
  exists Ssat, Fluid_Brown_Korringa_dry2sat m inv (finmat Sd) (Fin K0) (Fin G0) (Fin Kf) (Fin phi) = Ret (finmat Ssat) /\
   Fluid_Brown_Korringa_sat2dry m inv (finmat Ssat) (Fin K0) (Fin G0) (Fin Kf) (Fin phi) = Ret (finmat Sd).
Proof.
  intros Hf Hb. rewrite beta_sum in Hb. assert (D := bkd_pos Kf Sd ltac:(lra) Hb). assert (T := bkt_pos Kf Hf).
  exists (d2s K0 Kf phi Sd). split; [apply d2s_eval; auto; lra|].
  rewrite s2d_eval; auto; try lra.
  - f_equal. apply finmat_ext, s2d_d2s; lra.
  - rewrite bkd'_d2s by lra. assert (0 < bkt K0 Kf phi ^ 2 / bkd K0 Kf phi Sd) by (apply Rdiv_lt_0_compat; [apply pow_lt|]; lra). lra.
Qed.
(** The other way round: a rock that is stiffer than a suspension of its mineral in its fluid. *)
Lemma BK_roundtrip2 Kf Ss : 0 < Kf < K0 -> sum3 (fun i => sum3 (fun j => Ss i j)) < phi / Kf + (1 - phi) / K0 ->
  exists Sd, Fluid_Brown_Korringa_sat2dry m inv (finmat Ss) (Fin K0) (Fin G0) (Fin Kf) (Fin phi) = Ret (finmat Sd) /\
   Fluid_Brown_Korringa_dry2sat m inv (finmat Sd) (Fin K0) (Fin G0) (Fin Kf) (Fin phi) = Ret (finmat Ss).
Proof.
  intros Hf Hb. rewrite beta_sum in Hb. assert (T := bkt_pos Kf Hf).
  assert (D : 0 < bkd' K0 Kf phi Ss).
  { unfold bkd', bkt. replace ((1 / Kf - 1 / K0) * phi - (beta Ss - 1 / K0)) with (phi / Kf + (1 - phi) / K0 - beta Ss) by (field; lra). lra. }
  exists (s2d K0 Kf phi Ss). split; [apply s2d_eval; auto; lra|].
  rewrite d2s_eval; auto; try lra.
  - f_equal. apply finmat_ext, d2s_s2d; lra.
  - rewrite bkd_s2d by lra. assert (0 < bkt K0 Kf phi ^ 2 / bkd' K0 Kf phi Ss) by (apply Rdiv_lt_0_compat; [apply pow_lt|]; lra). lra.
Qed.
(** Substitution: saturating the same dry frame with the second fluid. *)
Lemma BK_sub f1 f2 Cd Sd : 0 < f1 < K0 -> 0 < f2 <= K0 -> is_inverse Cd Sd -> symmetric Cd -> symmetric Sd ->
  1 / K0 < sum3 (fun i => sum3 (fun j => Sd i j)) -> iso_K Cd < K0 -> phi <= 1 ->
  exists C1 S1 C2 S2,
    Fluid_Brown_Korringa_dry2sat m inv (finmat Sd) (Fin K0) (Fin G0) (Fin f1) (Fin phi) = Ret (finmat S1) /\ is_inverse C1 S1 /\
    Fluid_Brown_Korringa_dry2sat m inv (finmat Sd) (Fin K0) (Fin G0) (Fin f2) (Fin phi) = Ret (finmat S2) /\ is_inverse C2 S2 /\
    Fluid_Brown_Korringa_sub m inv (finmat C1) (Fin K0) (Fin G0) (Fin f1) (Fin f2) (Fin phi) = Ret (finmat C2, finmat S2) /\
    (forall i j, (i < 6)%nat -> (j < 6)%nat -> C2 i j = Cd i j +
       (hydro i - sum3 (fun k => Cd i k) / (3 * K0)) * (hydro j - sum3 (fun k => Cd j k) / (3 * K0))
        / (phi / f2 + (1 - phi) / K0 - iso_K Cd / K0^2)).
Proof.
  intros H1 H2 HI HC HS Hb HK Hp1. rewrite beta_sum in Hb.
  assert (D1 := bkd_pos f1 Sd ltac:(lra) Hb). assert (D2 := bkd_pos f2 Sd H2 Hb). assert (T := bkt_pos f1 H1).
  assert (HB : forall f, 0 < f <= K0 -> 0 < bkg K0 f phi Cd).
  { intros f Hf. unfold bkg.
    assert (phi / K0 <= phi / f) by (apply Rmult_le_compat_l; [lra|apply inv_le; lra]).
    assert (iso_K Cd / K0^2 < 1 / K0). { apply div_lt_iff; [apply pow_lt; lra|]. replace (1 / K0 * K0^2) with K0 by (field; lra). lra. }
    replace ((1 - phi) / K0) with (1 / K0 - phi / K0) by (field; lra). lra. }
  assert (B1 := HB f1 ltac:(lra)). assert (B2 := HB f2 H2).
  assert (I1 := csat_inverse K0 f1 phi Cd Sd ltac:(lra) ltac:(lra) HI HC HS ltac:(lra) ltac:(lra)).
  assert (I2 := csat_inverse K0 f2 phi Cd Sd ltac:(lra) ltac:(lra) HI HC HS ltac:(lra) ltac:(lra)).
  exists (csat K0 f1 phi Cd), (d2s K0 f1 phi Sd), (csat K0 f2 phi Cd), (d2s K0 f2 phi Sd).
  split; [apply d2s_eval; auto; lra|]. split; [exact I1|]. split; [apply d2s_eval; auto; lra|]. split; [exact I2|].
  split; [|intros; reflexivity].
  unfold Fluid_Brown_Korringa_sub. rewrite (Hinv _ _ I1), call_ret. cbv beta.
  rewrite s2d_eval; auto; try lra.
  2:{ rewrite bkd'_d2s by lra. assert (0 < bkt K0 f1 phi ^ 2 / bkd K0 f1 phi Sd) by (apply Rdiv_lt_0_compat; [apply pow_lt|]; lra). lra. }
  rewrite call_ret. cbv beta. rewrite (finmat_ext _ Sd) by (apply s2d_d2s; lra).
  rewrite d2s_eval, call_ret by (auto; lra). cbv beta. rewrite (Hinv (d2s K0 f2 phi Sd) (csat K0 f2 phi Cd)) by (destruct I2; split; auto).
  reflexivity.
Qed.
(** Isotropic frame: Gassmann. *)
Lemma BK_Gassmann Kd Gd Kf Sd Cd : 0 < Kf <= K0 -> 0 < Kd < K0 -> 0 < Gd -> phi <= 1 ->
  utils_write_iso m (Fin Kd) (Fin Gd) = Ret (finmat Cd) -> is_inverse Cd Sd ->
  exists Ks Cs Ss, Fluid_Gassmann m (Fin Kd) (Fin Gd) (Fin K0) (Fin Kf) (Fin phi) = Ret (Fin Ks, Fin Gd) /\
   utils_write_iso m (Fin Ks) (Fin Gd) = Ret (finmat Cs) /\ is_inverse Cs Ss /\
   Fluid_Brown_Korringa_dry2sat m inv (finmat Sd) (Fin K0) (Fin G0) (Fin Kf) (Fin phi) = Ret (finmat Ss).
Proof.
  intros Hf Hd HGd Hp1 E I. rewrite write_iso_eval in E. apply ret_inj, finmat_inj6 in E.
  assert (ES : meq6 Sd (isoc Kd Gd)).
  { apply (inverse_unique Cd (iso Kd Gd) Sd (isoc Kd Gd)); auto; [apply meq6_sym; auto|apply isoc_inverse; lra]. }
  assert (Eb : beta Sd = 1 / Kd).
  { rewrite (beta_ext _ _ ES). unfold beta. rewrite !col3_isoc by (lra || lia). unfold hydro; cbn. field. lra. }
  assert (1 / K0 < 1 / Kd) by (apply Rmult_lt_compat_l; [lra|apply inv_lt; lra]).
  assert (D := bkd_pos Kf Sd Hf ltac:(lra)).
  assert (b := gb_pos Kd K0 H0 ltac:(lra)). assert (B := gB_pos Kd K0 Kf phi H0 Hf ltac:(lra)).
  destruct (gK_range Kd K0 Kf phi H0 Hf ltac:(lra) ltac:(lra)) as (L & U).
  exists (gK Kd K0 Kf phi), (iso (gK Kd K0 Kf phi) Gd), (isoc (gK Kd K0 Kf phi) Gd).
  split; [apply Gassmann_eval; lra|]. split; [apply write_iso_eval|]. split; [apply isoc_inverse; lra|].
  rewrite d2s_eval by (auto; lra). f_equal. apply finmat_ext. intros i j Hi Hj.
  assert (EK : 1 / gK Kd K0 Kf phi = 1 / Kd - (1 / Kd - 1 / K0)^2 / bkd K0 Kf phi Sd).
  { assert (ED : bkd K0 Kf phi Sd = gB Kd K0 Kf phi + (1 - Kd / K0)^2 / Kd).
    { unfold bkd, bkt, gB. rewrite Eb. field. lra. }
    assert (E5 : gK Kd K0 Kf phi * gB Kd K0 Kf phi = bkd K0 Kf phi Sd * Kd) by (rewrite ED; unfold gK; field; split; lra).
    assert (E6 : gK Kd K0 Kf phi = bkd K0 Kf phi Sd * Kd / gB Kd K0 Kf phi) by (rewrite <- E5; field; lra).
    rewrite E6. assert (E7 : gB Kd K0 Kf phi = bkd K0 Kf phi Sd - (1 - Kd / K0)^2 / Kd) by lra.
    transitivity (gB Kd K0 Kf phi / (bkd K0 Kf phi Sd * Kd)); [field; split; lra|]. rewrite E7. field. lra. }
  rewrite (d2s_ext K0 Kf phi _ _ ES) by auto. unfold d2s.
  replace (bkd K0 Kf phi (isoc Kd Gd)) with (bkd K0 Kf phi Sd) by (unfold bkd; rewrite (beta_ext _ _ ES); reflexivity).
  unfold bks. rewrite !col3_isoc by (auto; lra).
  transitivity (isoc Kd Gd i j - hydro i * hydro j / 9 * ((1 / Kd - 1 / K0)^2 / bkd K0 Kf phi Sd)); [field; lra|].
  replace ((1 / Kd - 1 / K0)^2 / bkd K0 Kf phi Sd) with (1 / Kd - 1 / gK Kd K0 Kf phi) by lra.
  fin6 i Hi; fin6 j Hj; unfold isoc, ofrows, hydro; cbn; field; lra.
Qed.
End BKpack.
