(** * P and Q of a spheroid are those of Eshelby's tensor. *)
From Verif Require Import Fl M_Utils M_EM Spec Spec3 Spec7 RealLemmas L_Lists L_EM1 L_EM5.
Open Scope R_scope.

(** ** Eshelby's tensor in terms of theta, f and R *)
Section Conc.
Variables (Km Gm Ki Gi th f : R) (S s : nat -> nat -> R).
Hypotheses (HK : 0 < Km) (HG : 0 < Gm).
Let A := Gi / Gm - 1.
Let B := (Ki / Km - Gi / Gm) / 3.
Let r := Gm / (Km + 4/3*Gm).
Let Sp := (1 - r) * (f + 3 * th) / 2.
Let Sm := (1 - r) * (f + 3 * th) / 4 + r * th.
Let S02 := - (1 - r) * f / 2 - r * th / 2.
Let S20 := - (1 - r) * (f + 3 * th - 2) / 2 - r * (1 - th).
Let S22 := (1 - r) * (1 + f) + r * (1 - th).
Hypotheses (E00 : S 0%nat 0%nat = (Sp + Sm) / 2) (E01 : S 0%nat 1%nat = (Sp - Sm) / 2)
  (E10 : S 1%nat 0%nat = (Sp - Sm) / 2) (E11 : S 1%nat 1%nat = (Sp + Sm) / 2)
  (E02 : S 0%nat 2%nat = S02) (E12 : S 1%nat 2%nat = S02) (E20 : S 2%nat 0%nat = S20) (E21 : S 2%nat 1%nat = S20) (E22 : S 2%nat 2%nat = S22).
Hypotheses (e01 : 2 * s 0%nat 1%nat = Sm)
  (e02 : 2 * s 0%nat 2%nat = 1 - f - 3/2 * th + r * (f + th)) (e12 : 2 * s 1%nat 2%nat = 1 - f - 3/2 * th + r * (f + th)).
Hypotheses (N2 : pF2 A B r f th <> 0) (N3 : pF3 A r f th <> 0) (N4 : pF4 A r f th <> 0).

Let m11 := 1 + (2 * B + A) * Sp + 2 * B * S02.
Let m12 := 2 * B * Sp + 2 * (B + A) * S02.
Let m21 := (2 * B + A) * S20 + B * S22.
Let m22 := 1 + 2 * B * S20 + (B + A) * S22.
Lemma conc_det : m11 * m22 - m12 * m21 = pF2 A B r f th.
Proof. unfold m11, m12, m21, m22, pF2, Sp, S02, S20, S22. generalize A B r. intros a b q. field. Qed.
Lemma conc_F4 : 1 + A * Sm = pF4 A r f th.
Proof. unfold pF4, Sm. generalize A r. intros. field. Qed.

Lemma es_solve e es : (forall i, (i < 3)%nat -> sum3 (fun j => iso_normal Ki Gi i j * e j) = sum3 (fun j => iso_normal Km Gm i j * (e j - es j))) <->
  (forall i, (i < 3)%nat -> es i = - (B * sum3 e + A * e i)).
Proof.
  assert (EA : Gm * (1 + A) = Gi) by (unfold A; field; lra).
  assert (EB : Km * (1 + A + 3 * B) = Ki) by (unfold A, B; field; lra).
  unfold sum3, iso_normal, kron. split; intros H.
  - assert (H0 := H 0%nat ltac:(lia)). assert (H1 := H 1%nat ltac:(lia)). assert (H2 := H 2%nat ltac:(lia)). cbn [Nat.eqb] in H0, H1, H2.
    set (x := e 0%nat) in *. set (y := e 1%nat) in *. set (z := e 2%nat) in *. set (p := es 0%nat) in *. set (q := es 1%nat) in *. set (w := es 2%nat) in *.
    assert (T : Km * (p + q + w) = (Km - Ki) * (x + y + z)) by lra.
    assert (T' : p + q + w = - (A + 3 * B) * (x + y + z)).
    { apply (Rmult_eq_reg_l Km); [|lra]. rewrite T, <- EB. ring. }
    intros i Hi. apply (Rmult_eq_reg_l (2 * Gm)); [|lra].
    assert (T2 : Km * (p + q + w) = - Km * (A + 3 * B) * (x + y + z)) by (rewrite T'; ring).
    assert (T3 : Gm * (p + q + w) = - Gm * (A + 3 * B) * (x + y + z)) by (rewrite T'; ring).
    destruct i as [|[|[|i]]]; [| | |lia]; fold x y z p q w; rewrite <- EA, <- EB in *; lra.
  - intros i Hi. rewrite (H 0%nat), (H 1%nat), (H 2%nat) by lia. unfold sum3. rewrite <- EA, <- EB.
    destruct i as [|[|[|i]]]; [| | |lia]; cbn [Nat.eqb]; clearbody A B; field.
Qed.

Let Em (i j : nat) : R :=
  match j with
  | 0%nat => match i with 0%nat => (m22 / pF2 A B r f th + 1 / pF4 A r f th) / 2 | 1%nat => (m22 / pF2 A B r f th - 1 / pF4 A r f th) / 2 | _ => - m21 / pF2 A B r f th end
  | 1%nat => match i with 0%nat => (m22 / pF2 A B r f th - 1 / pF4 A r f th) / 2 | 1%nat => (m22 / pF2 A B r f th + 1 / pF4 A r f th) / 2 | _ => - m21 / pF2 A B r f th end
  | _ => match i with 2%nat => m11 / pF2 A B r f th | _ => - m12 / pF2 A B r f th / 2 end
  end.
Let tm (i j : nat) : R := match j with 1%nat => 1 / pF4 A r f th | _ => 1 / pF3 A r f th end.

(** The strain in the inclusion solves a linear system with determinant F2 and F4. *)
Lemma strain_system e0 e : inclusion_strain S Km Gm Ki Gi e0 e <->
  m11 * (e 0%nat + e 1%nat) + m12 * e 2%nat = e0 0%nat + e0 1%nat /\ m21 * (e 0%nat + e 1%nat) + m22 * e 2%nat = e0 2%nat /\
  (1 + A * Sm) * (e 0%nat - e 1%nat) = e0 0%nat - e0 1%nat.
Proof.
  unfold inclusion_strain. split.
  - intros (es & H). assert (X : forall i, (i < 3)%nat -> es i = - (B * sum3 e + A * e i)) by (apply es_solve; intros i Hi; apply (H i Hi)).
    assert (H0 := proj1 (H 0%nat ltac:(lia))). assert (H1 := proj1 (H 1%nat ltac:(lia))). assert (H2 := proj1 (H 2%nat ltac:(lia))).
    unfold sum3 in H0, H1, H2. rewrite E00, E01, E02 in H0. rewrite E10, E11, E12 in H1. rewrite E20, E21, E22 in H2.
    rewrite !X in H0, H1, H2 by lia. unfold sum3 in H0, H1, H2. unfold m11, m12, m21, m22. repeat split; lra.
  - intros (H0 & H1 & H2). exists (fun i => - (B * sum3 e + A * e i)). intros i Hi. split.
    2:{ revert i Hi. apply (proj2 (es_solve e (fun i => - (B * sum3 e + A * e i)))). reflexivity. }
    unfold m11, m12, m21, m22 in *. unfold sum3.
    destruct i as [|[|[|i]]]; [| | |lia]; rewrite ?E00, ?E01, ?E02, ?E10, ?E11, ?E12, ?E20, ?E21, ?E22; lra.
Qed.
Lemma cramer2 x y a b : m11 * x + m12 * y = a /\ m21 * x + m22 * y = b <-> x = (m22 * a - m12 * b) / pF2 A B r f th /\ y = (m11 * b - m21 * a) / pF2 A B r f th.
Proof.
  rewrite <- conc_det in *. split.
  - intros (<- & <-). split; field; exact N2.
  - intros (-> & ->). split; field; exact N2.
Qed.
Lemma conc_main : concentration S s Km Gm Ki Gi (pqP A B r f th) (pqQ A B r f th).
Proof.
  exists Em, tm. split; [|split; [|split]].
  - intros j Hj e. rewrite strain_system. rewrite <- and_assoc, cramer2. rewrite conc_F4.
    assert (U : forall x c, pF4 A r f th * x = c <-> x = c / pF4 A r f th).
    { intros x c. split; [intros <-; field; exact N4|intros ->; field; exact N4]. }
    rewrite U. clear U. unfold axis_dir, kron.
    destruct j as [|[|[|j]]]; [| | |lia]; cbn [Nat.eqb]; (split; [intros ((H0 & H1) & H2) i Hi; destruct i as [|[|[|i]]]; [| | |lia]; cbn [Em]
      | intros H; rewrite (H 0%nat), (H 1%nat), (H 2%nat) by lia; cbn [Em]; repeat split; field; auto]).
    all: try (match goal with H : ?x = _ |- ?x = _ => rewrite H end; field; auto; fail).
    all: match goal with |- ?e 0%nat = _ => replace (e 0%nat) with (((e 0%nat + e 1%nat) + (e 0%nat - e 1%nat)) / 2) by field
         | |- ?e 1%nat = _ => replace (e 1%nat) with (((e 0%nat + e 1%nat) - (e 0%nat - e 1%nat)) / 2) by field end; match goal with H0 : _ + _ = _, H2 : _ - _ = _ |- _ => rewrite H0, H2 end; field; auto.
  - intros i j Hij e. unfold inclusion_shear.
    assert (GG : forall u es, 2 * Gi * u = 2 * Gm * (u - es) <-> es = - A * u).
    { intros u es. assert (EA : Gm * (1 + A) = Gi) by (unfold A; field; lra). split.
      - intros H. apply (Rmult_eq_reg_l (2 * Gm)); [|lra]. rewrite <- EA in H. lra.
      - intros ->. rewrite <- EA. ring. }
    assert (X : forall c d, 2 * s i j = c -> 1 + A * c = d -> d <> 0 -> (exists es, e = 1 + 2 * s i j * es /\ 2 * Gi * e = 2 * Gm * (e - es)) <-> e = 1 / d).
    { intros c d Ec <- Nd. split.
      - intros (es & H1 & H2). apply GG in H2. subst es. rewrite Ec in H1. apply (Rmult_eq_reg_r (1 + A * c)); [|exact Nd]. field_simplify; [lra|exact Nd].
      - intros ->. exists (- A * (1 / (1 + A * c))). split; [rewrite Ec; field; exact Nd|apply GG; reflexivity]. }
    assert (C : i = 0%nat /\ j = 1%nat \/ i = 0%nat /\ j = 2%nat \/ i = 1%nat /\ j = 2%nat) by lia.
    destruct C as [(-> & ->)|[(-> & ->)|(-> & ->)]]; cbn [tm].
    + apply X with (c := Sm); [exact e01|exact conc_F4|exact N4].
    + eapply X; [exact e02|reflexivity|exact N3].
    + eapply X; [exact e12|reflexivity|exact N3].
  - unfold sum3; cbn [Em]. unfold pqP.
    assert (X : pF1 A r f th = (2 * m22 - 2 * m21 + m11 - m12) / 3).
    { unfold pF1, m11, m12, m21, m22, Sp, S02, S20, S22. generalize A B r. intros a b q. field. }
    rewrite X. field. auto.
  - unfold sum3; cbn [Em tm]. unfold pqP, pqQ.
    assert (X : pF4 A r f th * pF5 A B r f th + pF6 A B r f th * pF7 A B r f th - pF8 A B r f th * pF9 A B r f th + pF1 A r f th * pF4 A r f th
       = (m22 + m11) * pF4 A r f th + pF2 A B r f th).
    { rewrite <- conc_det. unfold pF1, pF4, pF5, pF6, pF7, pF8, pF9, m11, m12, m21, m22, Sp, S02, S20, S22. generalize A B r. intros a b q. field. }
    replace (pF4 A r f th * pF5 A B r f th + pF6 A B r f th * pF7 A B r f th - pF8 A B r f th * pF9 A B r f th)
      with ((m22 + m11) * pF4 A r f th + pF2 A B r f th - pF1 A r f th * pF4 A r f th) by lra.
    field. auto.
Qed.
End Conc.

(** ** theta and f of an oblate spheroid: bounds *)
From Coquelicot Require Import Coquelicot.
Lemma mono0_ (F F' : R -> R) t : 0 <= t -> F 0 = 0 -> (forall c, 0 <= c <= t -> derivable_pt_lim F c (F' c)) -> (forall c, 0 <= c <= t -> 0 <= F' c) -> 0 <= F t.
Proof.
  intros Ht F0 D P. destruct (Req_dec t 0) as [-> | N]; [lra|].
  destruct (MVT_cor2 F F' 0 t ltac:(lra)) as (c & E & Hc); [intros; apply D; auto|].
  assert (0 <= F' c) by (apply P; lra). nra.
Qed.
Definition tq (x : R) : R := x - sin x * cos x.
Definition tN (x : R) : R := 3 * sin x - sin x ^ 3 - 3 * x * cos x.
Lemma sc2 x : cos x ^ 2 = 1 - sin x ^ 2.
Proof. assert (H := sin2_cos2 x). unfold Rsqr in H. lra. Qed.
Lemma scpos x : 0 <= x <= PI / 2 -> 0 <= sin x <= 1 /\ 0 <= cos x <= 1.
Proof.
  intros H. assert (P := PI_RGT_0). assert (A := SIN_bound x). assert (B := COS_bound x).
  assert (0 <= sin x) by (apply sin_ge_0; lra). assert (0 <= cos x) by (apply cos_ge_0; lra). lra.
Qed.
Ltac trig c := apply Rminus_diag_uniq;
  let C2 := fresh in let C3 := fresh in let C4 := fresh in let C5 := fresh in
  assert (C2 := sc2 c); assert (C3 : cos c ^ 3 = cos c * (1 - sin c ^ 2)) by (rewrite <- C2; ring);
  assert (C4 : cos c ^ 4 = (1 - sin c ^ 2) ^ 2) by (rewrite <- C2; ring); assert (C5 : cos c ^ 5 = cos c * (1 - sin c ^ 2) ^ 2) by (rewrite <- C2; ring);
  unfold tq, tN; field_simplify; rewrite ?C5, ?C4, ?C3, ?C2; field.
Ltac d0 F F' x := apply (mono0_ F F' x); [lra | unfold tq, tN; rewrite ?sin_0, ?cos_0; ring | intros c Hc; apply is_derive_Reals; unfold tq, tN; auto_derive; [auto|] | intros c Hc].
Lemma tq_lo x : 0 <= x <= PI / 2 -> 0 <= tq x - 2/3 * sin x ^ 3.
Proof.
  intros H. d0 (fun x => tq x - 2/3 * sin x ^ 3) (fun x => 2 * sin x ^ 2 * (1 - cos x)) x.
  - trig c.
  - destruct (scpos c) as (? & ?); [lra|]. assert (0 <= sin c ^ 2) by (apply pow_le; lra). apply Rmult_le_pos; lra.
Qed.
Lemma tq_pos x : 0 <= x <= PI / 2 -> 0 <= tq x.
Proof. intros H. assert (L := tq_lo x H). destruct (scpos x H) as (? & ?). assert (0 <= sin x ^ 3) by (apply pow_le; lra). lra. Qed.
Lemma tq_hi x : 0 <= x <= PI / 2 -> 0 <= 2/3 * sin x ^ 3 - tq x * cos x.
Proof.
  intros H. d0 (fun x => 2/3 * sin x ^ 3 - tq x * cos x) (fun x => tq x * sin x) x.
  - trig c.
  - destruct (scpos c) as (? & ?); [lra|]. apply Rmult_le_pos; [apply tq_pos|]; lra.
Qed.
Lemma tN_lo x : 0 <= x <= PI / 2 -> 0 <= tN x - 2/5 * sin x ^ 5.
Proof.
  intros H. d0 (fun x => tN x - 2/5 * sin x ^ 5) (fun x => 3 * sin x * tq x - 2 * sin x ^ 4 * cos x) x.
  - trig c.
  - destruct (scpos c) as (? & ?); [lra|]. assert (L := tq_lo c ltac:(lra)). assert (0 <= sin c ^ 4) by (apply pow_le; lra).
    assert (3 * sin c * (2/3 * sin c ^ 3) <= 3 * sin c * tq c) by (apply Rmult_le_compat_l; lra).
    assert (sin c ^ 4 * cos c <= sin c ^ 4 * 1) by (apply Rmult_le_compat_l; lra). lra.
Qed.
Lemma tN_pos x : 0 <= x <= PI / 2 -> 0 <= tN x.
Proof. intros H. assert (L := tN_lo x H). destruct (scpos x H) as (? & ?). assert (0 <= sin x ^ 5) by (apply pow_le; lra). lra. Qed.
Lemma tN_hi x : 0 <= x <= PI / 2 -> 0 <= 2/5 * sin x ^ 5 - tN x * cos x ^ 2.
Proof.
  intros H. d0 (fun x => 2/5 * sin x ^ 5 - tN x * cos x ^ 2) (fun x => cos x * (2 * sin x ^ 4 - 3 * sin x * tq x * cos x + 2 * tN x * sin x)) x.
  - trig c.
  - destruct (scpos c) as (? & ?); [lra|]. assert (L := tq_hi c ltac:(lra)). assert (LN := tN_pos c ltac:(lra)).
    assert (3 * sin c * (tq c * cos c) <= 3 * sin c * (2/3 * sin c ^ 3)) by (apply Rmult_le_compat_l; lra).
    assert (0 <= 2 * tN c * sin c) by (apply Rmult_le_pos; lra). apply Rmult_le_pos; lra.
Qed.
Lemma tk_pos x : 0 <= x <= PI / 2 -> 0 <= tq x * sin x ^ 2 - cos x * tN x.
Proof.
  intros H. d0 (fun x => tq x * sin x ^ 2 - cos x * tN x) (fun x => 2 * sin x ^ 4 - sin x * (tq x * cos x) + sin x * tN x) x.
  - trig c.
  - destruct (scpos c) as (? & ?); [lra|]. assert (L := tq_hi c ltac:(lra)). assert (LN := tN_pos c ltac:(lra)). assert (0 <= sin c ^ 4) by (apply pow_le; lra).
    assert (sin c * (tq c * cos c) <= sin c * (2/3 * sin c ^ 3)) by (apply Rmult_le_compat_l; lra).
    assert (0 <= sin c * tN c) by (apply Rmult_le_pos; lra). lra.
Qed.
Definition obl_theta (al : R) : R := al / (sqrt (1 - al^2))^3 * (acos al - al * sqrt (1 - al^2)).
Definition obl_f (al : R) : R := al^2 * (3 * obl_theta al - 2) / (1 - al^2).
Lemma obl_bounds al : 0 < al < 1 ->
  2/3 * al <= obl_theta al <= 2/3 /\ - (2/5) <= obl_f al <= - (2/5 * al^2) /\ 0 <= obl_f al + obl_theta al.
Proof.
  intros H. assert (PP := PI_RGT_0). assert (Q : 0 < 1 - al^2) by nra. assert (S0 := sqrt_lt_R0 _ Q). assert (S2 : sqrt (1 - al^2) ^ 2 = 1 - al^2) by (rewrite <- Rsqr_pow2; apply Rsqr_sqrt; lra).
  assert (C : cos (acos al) = al) by (apply cos_acos; lra). assert (Sn : sin (acos al) = sqrt (1 - al^2)).
  { rewrite sin_acos by lra. f_equal. unfold Rsqr. ring. }
  assert (B := acos_bound al). assert (X : 0 <= acos al <= PI / 2).
  { split; [lra|]. destruct (Rle_or_lt (acos al) (PI / 2)) as [?|L]; [lra|]. exfalso.
    assert (cos (acos al) <= 0) by (apply cos_le_0; lra). lra. }
  assert (L1 := tq_lo _ X). assert (L2 := tq_hi _ X). assert (L3 := tN_lo _ X). assert (L4 := tN_hi _ X). assert (L5 := tk_pos _ X).
  set (s := sqrt (1 - al^2)) in *. set (x := acos al) in *. set (q := tq x) in *. set (N := tN x) in *. rewrite Sn, C in *.
  assert (s3 : 0 < s^3) by (apply pow_lt; lra). assert (s5 : 0 < s^5) by (apply pow_lt; lra). assert (a2 : 0 < al^2) by nra.
  assert (Eth : obl_theta al = al * q / s^3). { unfold obl_theta. fold s x. unfold q, tq. rewrite Sn, C. field. lra. }
  assert (EN : 3 * al * q - 2 * s^3 = - N). { unfold N, tN, q, tq. rewrite Sn, C. replace (s^3) with (s * s^2) by ring. rewrite S2. ring. }
  assert (Ef : obl_f al = - (al^2 * N / s^5)). { unfold obl_f. rewrite Eth, <- S2. replace N with (- (3 * al * q - 2 * s^3)) by lra. field. lra. }
  rewrite Ef, Eth. repeat split.
  - apply le_div_iff; [lra|]. nra.
  - apply div_le_iff; [lra|]. lra.
  - apply Ropp_le_contravar. apply div_le_iff; [lra|]. lra.
  - apply Ropp_le_contravar. apply le_div_iff; [lra|]. nra.
  - replace (- (al^2 * N / s^5) + al * q / s^3) with (al * (q * s^2 - al * N) / s^5) by (field; lra).
    apply le_div_iff; [lra|]. rewrite Rmult_0_l. apply Rmult_le_pos; lra.
Qed.

(** ** The denominators are positive for every passive inclusion *)
Section Pos.
Variables (A k r f th : R).
Hypotheses (HA : -1 <= A) (Hk : -1 <= k) (Hr : 0 < r < 3/4) (Ht : 0 < th <= 2/3) (Hf : f <= 0) (Hft : 0 <= f + th).
Lemma pos_F3 : 0 < pF3 A r f th.
Proof.
  unfold pF3. replace (1 + A * (1 - f - 3/2 * th + r * (f + th))) with ((f * (1 - r) + th * (3/2 - r)) + (A + 1) * (1 - (f * (1 - r) + th * (3/2 - r)))) by field.
  assert (0 <= (f + th) * (1 - r)) by (apply Rmult_le_pos; lra). assert (0 < f * (1 - r) + th * (3/2 - r)) by lra.
  assert (f * (1 - r) <= 0) by nra. assert (th * (3/2 - r) <= 2/3 * (3/2)) by (apply Rmult_le_compat; lra).
  assert (0 <= (A + 1) * (1 - (f * (1 - r) + th * (3/2 - r)))) by (apply Rmult_le_pos; lra). lra.
Qed.
Lemma pos_F4 : 0 < pF4 A r f th.
Proof.
  unfold pF4. set (w := f + 3 * th - r * (f - th)).
  assert (W : 0 <= w <= 4). { unfold w. assert (0 <= (f + th) * (1 - r)) by (apply Rmult_le_pos; lra). assert (f * (1 - r) <= 0) by nra. assert (0 <= r * th <= 3/4 * (2/3)) by (split; [apply Rmult_le_pos; lra|apply Rmult_le_compat; lra]). lra. }
  assert (W' : w < 4). { unfold w. assert (f * (1 - r) <= 0) by nra. assert (0 <= r * th <= 3/4 * (2/3)) by (split; [apply Rmult_le_pos; lra|apply Rmult_le_compat; lra]). lra. }
  replace (1 + A / 4 * w) with ((1 - w / 4) + (A + 1) * (w / 4)) by field. assert (0 <= (A + 1) * (w / 4)) by (apply Rmult_le_pos; lra). lra.
Qed.
Lemma pos_F2 : 0 < pF2 A ((k - A) / 3) r f th.
Proof.
  set (W := f * (1 - r) + th * (1 + r - 2 * r * th)).
  set (c0 := r * (2 * (1 - r) * (th - f) - (3 - 4 * r) * th^2)).
  set (c1 := r * (2 * (1 - r) * (f - th) + (3 - 4 * r) * th^2 + 4/3)).
  set (c2 := (3 - 4 * r) / 3 * (1 - 3/2 * W)).
  set (c3 := (3/2 - 2 * r) * W).
  replace (pF2 A ((k - A) / 3) r f th) with (c0 + (A + 1) * c1 + (k + 1) * c2 + (A + 1) * (k + 1) * c3)
    by (unfold pF2, c0, c1, c2, c3, W; field).
  assert (W0 : 0 <= W). { unfold W. assert (0 <= (f + th) * (1 - r)) by (apply Rmult_le_pos; lra). assert (0 <= th * (2 * r * (1 - th))) by (repeat apply Rmult_le_pos; lra). lra. }
  assert (W1 : W <= 2/3). { unfold W. assert (f * (1 - r) <= 0) by nra. assert (X : th * (1 + r - 2 * r * th) <= 2/3); [|lra].
    assert (0 <= (1 - 4/3 * r) * (2/3 - th)) by (apply Rmult_le_pos; lra).
    assert (0 <= 4/3 * r * (2/3 - 7/4 * th + 3/2 * th^2)); [|lra]. apply Rmult_le_pos; [lra|]. assert (0 <= (th - 7/12)^2) by apply pow2_ge_0. lra. }
  assert (C0 : 0 < c0). { unfold c0. apply Rmult_lt_0_compat; [lra|]. assert (th^2 <= 2/3 * th) by nra.
    assert ((3 - 4 * r) * th^2 <= (3 - 4 * r) * (2/3 * th)) by (apply Rmult_le_compat_l; lra). assert (0 < r * th) by (apply Rmult_lt_0_compat; lra). assert (0 <= (1 - r) * (- f)) by (apply Rmult_le_pos; lra). lra. }
  assert (C1 : 0 <= c1). { unfold c1. apply Rmult_le_pos; [lra|]. assert (0 <= (1 - r) * (f + th)) by (apply Rmult_le_pos; lra).
    assert (0 <= (th - 2/3)^2) by apply pow2_ge_0. assert (0 <= r * th * (1 - th)) by (repeat apply Rmult_le_pos; lra). lra. }
  assert (C2 : 0 <= c2) by (unfold c2; apply Rmult_le_pos; lra). assert (C3 : 0 <= c3) by (unfold c3; apply Rmult_le_pos; lra).
  assert (0 <= (A + 1) * c1) by (apply Rmult_le_pos; lra). assert (0 <= (k + 1) * c2) by (apply Rmult_le_pos; lra).
  assert (0 <= (A + 1) * (k + 1) * c3) by (repeat apply Rmult_le_pos; lra). lra.
Qed.
End Pos.
Lemma pos_F1 A r f th : -1 <= A -> 0 < r < 3/4 -> 0 < th <= 2/3 -> f <= 0 -> 0 <= f + th -> 0 < pF1 A r f th.
Proof.
  intros HA Hr Ht Hf Hft. unfold pF1. set (w := 3/2 * (f + th) - r * (3/2 * f + 5/2 * th - 4/3)).
  assert (W0 : 0 <= w). { unfold w. assert (0 <= (f + th) * (1 - r)) by (apply Rmult_le_pos; lra). assert (0 <= r * (4/3 - th)) by (apply Rmult_le_pos; lra). lra. }
  assert (W1 : w < 1). { unfold w. assert (f * (1 - r) <= 0) by nra. assert (th * (3/2 - 5/2 * r) + 4/3 * r < 1); [|lra].
    destruct (Rle_or_lt (3/2 - 5/2 * r) 0); [assert (th * (3/2 - 5/2 * r) <= 0) by nra; lra|].
    assert (th * (3/2 - 5/2 * r) <= 2/3 * (3/2 - 5/2 * r)) by (apply Rmult_le_compat_r; lra). lra. }
  replace (1 + A * w) with ((1 - w) + (A + 1) * w) by ring. assert (0 <= (A + 1) * w) by (apply Rmult_le_pos; lra). lra.
Qed.

Section Obl.
Variables (m : mode) (Km Gm Ki Gi : R).
Hypotheses (HK : 0 < Km) (HG : 0 < Gm) (HKi : 0 <= Ki) (HGi : 0 <= Gi).
Let A := Gi / Gm - 1.
Let B := (Ki / Km - Gi / Gm) / 3.
Let r := Gm / (Km + 4/3*Gm).
Let nu := poisson Km Gm.
Lemma obl_A : -1 <= A.
Proof. unfold A. assert (0 <= Gi / Gm) by (apply le_div_iff; lra). lra. Qed.
Lemma obl_k : -1 <= A + 3 * B.
Proof. unfold A, B. assert (0 <= Ki / Km) by (apply le_div_iff; lra). lra. Qed.
Lemma obl_r : 0 < r < 3/4.
Proof. unfold r. split; [apply Rdiv_lt_0_compat; lra|]. apply div_lt_iff; lra. Qed.
Lemma obl_nu : 1 / (1 - nu) = 2 * (1 - r) /\ (1 - 2 * nu) / (1 - nu) = 2 * r /\ 1 - nu <> 0.
Proof.
  assert (E : 1 - nu = (3 * Km + 4 * Gm) / (6 * Km + 2 * Gm)) by (unfold nu, poisson; field; lra).
  assert (E2 : 1 - 2 * nu = 6 * Gm / (6 * Km + 2 * Gm)) by (unfold nu, poisson; field; lra).
  assert (P : 0 < (3 * Km + 4 * Gm) / (6 * Km + 2 * Gm)) by (apply Rdiv_lt_0_compat; lra).
  rewrite E2, E. unfold r. repeat split; try lra; field; lra.
Qed.
Lemma obl_den th f : 0 < th <= 2/3 -> f <= 0 -> 0 <= f + th -> 0 < pF2 A B r f th /\ 0 < pF3 A r f th /\ 0 < pF4 A r f th.
Proof.
  intros H1 H2 H3. assert (X := obl_A). assert (Y := obl_k). assert (Z := obl_r). repeat split.
  - replace B with ((A + 3 * B - A) / 3) by field. apply pos_F2; auto.
  - apply pos_F3; auto.
  - apply pos_F4; auto.
Qed.
Lemma obl_eval al : 0 < al < 1 -> EM_PQ m (Fin Km) (Fin Gm) (Fin Ki) (Fin Gi) al =
  Ret (Fin (pqP A B r (obl_f al) (obl_theta al)), Fin (pqQ A B r (obl_f al) (obl_theta al))).
Proof.
  intros H. destruct (obl_bounds al H) as (B1 & B2 & B3). unfold EM_PQ. destruct (Req_EM_T al 1); [lra|]. destruct (Rlt_dec al 1); [|lra].
  destruct (theta_oblate m al) as (th & -> & E); [lra|]. rewrite bind_fin.
  assert (Q : 0 < 1 - al^2) by nra.
  assert (E' : th = obl_theta al).
  { rewrite E. unfold obl_theta. f_equal. f_equal. replace (3/2) with (1 + /2) by field. rewrite Rpower_plus, Rpower_1, Rpower_sqrt by lra.
    replace (sqrt (1 - al^2) ^ 3) with (sqrt (1 - al^2) * sqrt (1 - al^2) * sqrt (1 - al^2)) by ring. rewrite sqrt_sqrt by lra. ring. }
  rewrite E'. assert (al^2 > 0) by nra.
  destruct (obl_den (obl_theta al) (obl_f al)) as (N2 & N3 & N4); [nra|nra|lra|].
  rewrite PQ_spheroid_eval; try lra; fold (obl_f al) A B r; try lra. reflexivity.
Qed.
Lemma obl_conc al : 0 < al < 1 -> concentration (esh_S nu al) (esh_shear nu al) Km Gm Ki Gi
  (pqP A B r (obl_f al) (obl_theta al)) (pqQ A B r (obl_f al) (obl_theta al)).
Proof.
  intros H. destruct (obl_bounds al H) as (B1 & B2 & B3). assert (al^2 > 0) by nra. assert (Q : 0 < 1 - al^2) by nra.
  destruct (obl_den (obl_theta al) (obl_f al)) as (N2 & N3 & N4); [nra|nra|lra|].
  destruct obl_nu as (X1 & X2 & X3). assert (PP := PI_RGT_0).
  assert (EI : esh_I1 al = 2 * PI * obl_theta al). { unfold esh_I1, obl_theta. field. apply Rgt_not_eq, sqrt_lt_R0; lra. }
  assert (Ef : obl_f al = al^2 * (obl_f al + 3 * obl_theta al - 2)) by (unfold obl_f; field; lra).
  assert (E13 : (esh_I al 0 - esh_I al 2) / (al^2 - 1) = - 2 * PI * (obl_f al + 3 * obl_theta al - 2)).
  { unfold esh_I; cbn [nth]. rewrite EI. unfold obl_f. field. lra. }
  set (th := obl_theta al) in *. set (f := obl_f al) in *.
  assert (EQ : forall u v w, u / (8 * PI * (1 - nu)) = w -> u = v -> v / (8 * PI * (1 - nu)) = w) by (intros u v w <- <-; reflexivity).
  assert (L : forall a b, (a + (1 - 2 * nu) * b) / (8 * PI * (1 - nu)) = (1 - r) * a / (4 * PI) + r * b / (4 * PI)).
  { intros a b. replace ((a + (1 - 2 * nu) * b) / (8 * PI * (1 - nu))) with (a / (8 * PI) * (1 / (1 - nu)) + b / (8 * PI) * ((1 - 2 * nu) / (1 - nu))) by (field; lra).
    rewrite X1, X2. field. lra. }
  assert (L2 : forall a b, (a + (1 - 2 * nu) * b) / (16 * PI * (1 - nu)) = (1 - r) * a / (8 * PI) + r * b / (8 * PI)).
  { intros a b. replace ((a + (1 - 2 * nu) * b) / (16 * PI * (1 - nu))) with (a / (16 * PI) * (1 / (1 - nu)) + b / (16 * PI) * ((1 - 2 * nu) / (1 - nu))) by (field; lra).
    rewrite X1, X2. field. lra. }
  apply conc_main; auto; try (fold A B r; lra).
  all: fold r; unfold esh_S, esh_shear, esh_II; rewrite E13; unfold rows, esh_axis, esh_I; cbn [nth Nat.eqb]; rewrite ?EI.
  all: try (match goal with |- (?x - (1 - 2 * nu) * ?b) / _ = _ => replace (x - (1 - 2 * nu) * b) with (x + (1 - 2 * nu) * (- b)) by ring end).
  all: rewrite ?L, ?L2.
  all: try (field; lra).
  all: try (replace (al^2 * (- 2 * PI * (f + 3 * th - 2))) with (- 2 * PI * f) by (rewrite Ef at 1; ring); field; lra).
  - replace (3 * al ^ 2 * ((4 * PI / al ^ 2 - 2 * (-2 * PI * (f + 3 * th - 2))) / 3)) with (4 * PI + 4 * PI * (al^2 * (f + 3 * th - 2))) by (field; lra).
    rewrite <- Ef. field. lra.
  - replace ((1 ^ 2 + al ^ 2) * (-2 * PI * (f + 3 * th - 2))) with (-2 * PI * (al^2 * (f + 3 * th - 2)) + -2 * PI * (f + 3 * th - 2)) by ring.
    rewrite <- Ef. field. lra.
  - replace ((1 ^ 2 + al ^ 2) * (-2 * PI * (f + 3 * th - 2))) with (-2 * PI * (al^2 * (f + 3 * th - 2)) + -2 * PI * (f + 3 * th - 2)) by ring.
    rewrite <- Ef. field. lra.
Qed.
End Obl.

(** ** The sphere, as its own case and as the limit *)
Section Sph.
Variables (A B r : R).
Let g := 1 + A * (2/5 + 4/15 * r).
Let h := 1 + (A + 3 * B) * (1 - 4/3 * r).
Lemma sph_F1 : pF1 A r (-(2/5)) (2/3) = g. Proof. unfold pF1, g. field. Qed.
Lemma sph_F2 : pF2 A B r (-(2/5)) (2/3) = g * h. Proof. unfold pF2, g, h. field. Qed.
Lemma sph_F3 : pF3 A r (-(2/5)) (2/3) = g. Proof. unfold pF3, g. field. Qed.
Lemma sph_F4 : pF4 A r (-(2/5)) (2/3) = g. Proof. unfold pF4, g. field. Qed.
Lemma sph_P : g <> 0 -> h <> 0 -> pqP A B r (-(2/5)) (2/3) = 1 / h.
Proof. intros. unfold pqP. rewrite sph_F1, sph_F2. field. auto. Qed.
Lemma sph_Q : g <> 0 -> h <> 0 -> pqQ A B r (-(2/5)) (2/3) = 1 / g.
Proof.
  intros. unfold pqQ. rewrite sph_F2, sph_F3, sph_F4.
  assert (X : g * pF5 A B r (-(2/5)) (2/3) + pF6 A B r (-(2/5)) (2/3) * pF7 A B r (-(2/5)) (2/3) - pF8 A B r (-(2/5)) (2/3) * pF9 A B r (-(2/5)) (2/3) = 2 * g * h).
  { unfold g, h, pF5, pF6, pF7, pF8, pF9. field. }
  rewrite X. field. auto.
Qed.
End Sph.
Section Sph2.
Variables (m : mode) (Km Gm Ki Gi : R).
Hypotheses (HK : 0 < Km) (HG : 0 < Gm) (HKi : 0 <= Ki) (HGi : 0 <= Gi).
Let A := Gi / Gm - 1.
Let B := (Ki / Km - Gi / Gm) / 3.
Let r := Gm / (Km + 4/3*Gm).
Let nu := poisson Km Gm.
Lemma sph_gh : 0 < 1 + A * (2/5 + 4/15 * r) /\ 0 < 1 + (A + 3 * B) * (1 - 4/3 * r).
Proof.
  assert (X := obl_A Gm Gi HG HGi). assert (Y := obl_k Km Gm Ki Gi HK HKi). assert (Z := obl_r Km Gm HK HG). fold A B r in X, Y, Z.
  split.
  - replace (1 + A * (2/5 + 4/15 * r)) with ((3/5 - 4/15 * r) + (A + 1) * (2/5 + 4/15 * r)) by field. assert (0 <= (A + 1) * (2/5 + 4/15 * r)) by (apply Rmult_le_pos; lra). lra.
  - replace (1 + (A + 3 * B) * (1 - 4/3 * r)) with (4/3 * r + (A + 3 * B + 1) * (1 - 4/3 * r)) by field. assert (0 <= (A + 3 * B + 1) * (1 - 4/3 * r)) by (apply Rmult_le_pos; lra). lra.
Qed.
Lemma sph_eval : EM_PQ m (Fin Km) (Fin Gm) (Fin Ki) (Fin Gi) 1 = Ret (Fin (pqP A B r (-(2/5)) (2/3)), Fin (pqQ A B r (-(2/5)) (2/3))).
Proof.
  destruct sph_gh as (G1 & H1). rewrite sph_P, sph_Q by lra.
  unfold EM_PQ. destruct (Req_EM_T 1 1); [|lra]. fls. assert (0 < Gm / 6 * (9 * Km + 8 * Gm) / (Km + 2 * Gm)) by pos.
  set (xi := Gm / 6 * (9 * Km + 8 * Gm) / (Km + 2 * Gm)) in *. fls.
  assert (Eh : 1 + (A + 3 * B) * (1 - 4/3 * r) = (Ki + 4 * Gm / 3) / (Km + 4 * Gm / 3)) by (unfold A, B, r; field; lra).
  assert (Eg : 1 + A * (2/5 + 4/15 * r) = (Gi + xi) / (Gm + xi)). { unfold A, r, xi. field. repeat split; try lra. nra. }
  rewrite Eh, Eg. reteq; field; lra.
Qed.
Lemma sph_conc : concentration (sphere_S nu) (sphere_shear nu) Km Gm Ki Gi (pqP A B r (-(2/5)) (2/3)) (pqQ A B r (-(2/5)) (2/3)).
Proof.
  destruct (obl_den Km Gm Ki Gi HK HG HKi HGi (2/3) (-(2/5))) as (N2 & N3 & N4); try lra.
  destruct (obl_nu Km Gm HK HG) as (X1 & X2 & X3). fold nu in X1, X2, X3. fold r in X1, X2.
  assert (L : forall a b, (a + b * nu) / (15 * (1 - nu)) = a / 15 * (2 * (1 - r)) + b / 15 * (1 - 2 * r)).
  { intros a b. rewrite <- X1. replace (1 - 2 * r) with (nu / (1 - nu)) by (replace (2 * r) with ((1 - 2 * nu) / (1 - nu)); field; auto). field. auto. }
  apply conc_main; auto; try (apply Rgt_not_eq; assumption).
  all: fold r; unfold sphere_S, sphere_shear; cbn [Nat.eqb].
  all: try (replace (7 - 5 * nu) with (7 + (-5) * nu) by ring); try (replace (5 * nu - 1) with ((-1) + 5 * nu) by ring); try (replace (4 - 5 * nu) with (4 + (-5) * nu) by ring); rewrite L; field.
Qed.
End Sph2.

(** Limits *)
Lemma lim_cst D c x0 : limit1_in (fun _ => c) D c x0.
Proof. intros e He. exists 1. split; [lra|]. intros x _. cbn. unfold R_dist. replace (c - c) with 0 by ring. rewrite Rabs_R0. exact He. Qed.
Lemma lim_eq (F : R -> R) D l l' x0 : limit1_in F D l x0 -> l = l' -> limit1_in F D l' x0.
Proof. intros H <-. exact H. Qed.
Lemma lim_ext (F F' : R -> R) D l x0 : limit1_in F D l x0 -> (forall x, D x -> F x = F' x) -> limit1_in F' D l x0.
Proof. intros H E e He. destruct (H e He) as (d & Hd & K). exists d. split; [exact Hd|]. intros x (Dx & Hx). rewrite <- E by exact Dx. apply K. split; auto. Qed.
Lemma lim_div (F G : R -> R) D l k x0 : limit1_in F D l x0 -> limit1_in G D k x0 -> k <> 0 -> limit1_in (fun x => F x / G x) D (l / k) x0.
Proof. intros H1 H2 H3. apply limit_mul; [exact H1|]. apply limit_inv; auto. Qed.
Lemma lim_pow (F : R -> R) D l x0 n : limit1_in F D l x0 -> limit1_in (fun x => F x ^ n) D (l ^ n) x0.
Proof. intros H. induction n as [|n IH]; cbn; [apply lim_cst|]. apply limit_mul; auto. Qed.
Ltac lim := match goal with
  | H : limit1_in ?F ?D ?l ?x |- limit1_in ?F ?D _ ?x => exact H
  | |- limit1_in (fun _ => ?c) _ _ _ => apply lim_cst
  | |- limit1_in (fun x => @?f x + @?g x) _ _ _ => eapply (limit_plus f g); lim
  | |- limit1_in (fun x => @?f x - @?g x) _ _ _ => eapply (limit_minus f g); lim
  | |- limit1_in (fun x => @?f x * @?g x) _ _ _ => eapply (limit_mul f g); lim
  | |- limit1_in (fun x => - @?f x) _ _ _ => eapply (limit_Ropp f); lim
  | |- limit1_in (fun x => @?f x / @?g x) _ _ _ => eapply (lim_div f g); [lim | lim | ]
  | |- limit1_in (fun x => @?f x ^ ?n) _ _ _ => eapply (lim_pow f _ _ _ n); lim
  | _ => idtac end.
Definition in01 (a : R) : Prop := 0 < a < 1.
Lemma squeeze1 (F : R -> R) l c : 0 < c -> (forall a, in01 a -> Rabs (F a - l) <= c * (1 - a)) -> limit1_in F in01 l 1.
Proof.
  intros Hc H e He. exists (e / c). split; [apply Rdiv_lt_0_compat; lra|]. cbn. unfold R_dist. intros x (Dx & Hx).
  apply Rle_lt_trans with (1 := H x Dx). destruct Dx. rewrite Rabs_left in Hx by lra.
  apply Rmult_lt_compat_l with (r := c) in Hx; [|lra]. replace (c * (e / c)) with e in Hx by (field; lra). lra.
Qed.
Lemma lim_theta1 : limit1_in obl_theta in01 (2/3) 1.
Proof. apply squeeze1 with (2/3); [lra|]. intros a Ha. destruct (obl_bounds a Ha) as (? & ? & ?). apply Rabs_le. lra. Qed.
Lemma lim_f1 : limit1_in obl_f in01 (-(2/5)) 1.
Proof. apply squeeze1 with 1; [lra|]. intros a Ha. destruct (obl_bounds a Ha) as (? & ? & ?). destruct Ha. apply Rabs_le. nra. Qed.
Section Lim1.
Variables (m : mode) (Km Gm Ki Gi : R).
Hypotheses (HK : 0 < Km) (HG : 0 < Gm) (HKi : 0 <= Ki) (HGi : 0 <= Gi).
Let A := Gi / Gm - 1.
Let B := (Ki / Km - Gi / Gm) / 3.
Let r := Gm / (Km + 4/3*Gm).
Lemma lim_pq1 : limit1_in (fun a => pqP A B r (obl_f a) (obl_theta a)) in01 (pqP A B r (-(2/5)) (2/3)) 1 /\
  limit1_in (fun a => pqQ A B r (obl_f a) (obl_theta a)) in01 (pqQ A B r (-(2/5)) (2/3)) 1.
Proof.
  destruct (obl_den Km Gm Ki Gi HK HG HKi HGi (2/3) (-(2/5))) as (N2 & N3 & N4); try lra. fold A B r in N2, N3, N4.
  assert (T := lim_theta1). assert (F := lim_f1). clearbody A B r. split.
  - unfold pqP. apply lim_div; [unfold pF1; lim; lra | unfold pF2; lim; lra | lra].
  - unfold pqQ.
    assert (L2 : limit1_in (fun a => pF2 A B r (obl_f a) (obl_theta a)) in01 (pF2 A B r (-(2/5)) (2/3)) 1) by (unfold pF2; lim).
    assert (L3 : limit1_in (fun a => pF3 A r (obl_f a) (obl_theta a)) in01 (pF3 A r (-(2/5)) (2/3)) 1) by (unfold pF3; lim).
    assert (L4 : limit1_in (fun a => pF4 A r (obl_f a) (obl_theta a)) in01 (pF4 A r (-(2/5)) (2/3)) 1) by (unfold pF4; lim).
    assert (L5 : limit1_in (fun a => pF5 A B r (obl_f a) (obl_theta a)) in01 (pF5 A B r (-(2/5)) (2/3)) 1) by (unfold pF5; lim; lra).
    assert (L6 : limit1_in (fun a => pF6 A B r (obl_f a) (obl_theta a)) in01 (pF6 A B r (-(2/5)) (2/3)) 1) by (unfold pF6; lim; lra).
    assert (L7 : limit1_in (fun a => pF7 A B r (obl_f a) (obl_theta a)) in01 (pF7 A B r (-(2/5)) (2/3)) 1) by (unfold pF7; lim; lra).
    assert (L8 : limit1_in (fun a => pF8 A B r (obl_f a) (obl_theta a)) in01 (pF8 A B r (-(2/5)) (2/3)) 1) by (unfold pF8; lim; lra).
    assert (L9 : limit1_in (fun a => pF9 A B r (obl_f a) (obl_theta a)) in01 (pF9 A B r (-(2/5)) (2/3)) 1) by (unfold pF9; lim; lra).
    lim; try lra. apply Rmult_integral_contrapositive_currified; lra.
Qed.
End Lim1.

(** A thin empty spheroid: aspect ratio times P and Q. *)
Definition thin (a : R) : R := (acos a - a * sqrt (1 - a^2)) / sqrt (1 - a^2) ^ 3.
Lemma lim_id D x0 : limit1_in (fun x => x) D x0 x0.
Proof. intros e He. exists e. split; [lra|]. intros x (_ & H). exact H. Qed.
Lemma lim_cont (F : R -> R) D x0 : continuity_pt F x0 -> limit1_in F D (F x0) x0.
Proof.
  intros H e He. destruct (H e He) as (d & Hd & K). exists d. split; [exact Hd|]. intros x (Dx & Hx). destruct (Req_dec x x0) as [->|N].
  - cbn. unfold R_dist. replace (F x0 - F x0) with 0 by ring. rewrite Rabs_R0. exact He.
  - apply K. split; [|exact Hx]. split; [exact I|auto].
Qed.
Lemma lim_thin : limit1_in thin in01 (PI / 2) 0.
Proof.
  assert (C1 : limit1_in acos in01 (acos 0) 0) by (apply lim_cont, derivable_continuous_pt, derivable_pt_acos; lra).
  assert (C2 : limit1_in (fun a => sqrt (1 - a^2)) in01 (sqrt (1 - 0^2)) 0).
  { apply (lim_cont (fun a => sqrt (1 - a^2))). apply derivable_continuous_pt. eexists. apply is_derive_Reals. auto_derive; [lra|reflexivity]. }
  assert (C0 := lim_id in01 0).
  assert (S1 : sqrt (1 - 0^2) = 1) by (replace (1 - 0^2) with 1 by ring; apply sqrt_1). rewrite S1 in C2. rewrite acos_0 in C1.
  unfold thin. eapply lim_eq; [lim; lra|]. field.
Qed.
Lemma obl_thin a : in01 a -> obl_theta a = a * thin a.
Proof. intros (H1 & H2). assert (0 < 1 - a^2) by nra. assert (S0 := sqrt_lt_R0 _ H). unfold obl_theta, thin. field. lra. Qed.
Lemma obl_f_thin a : in01 a -> obl_f a = a * (a * ((3 * (a * thin a) - 2) / (1 - a^2))).
Proof. intros H. unfold obl_f. rewrite obl_thin by exact H. destruct H. field. nra. Qed.
Section Thin.
Variable r : R.
Hypothesis Hr : 0 < r < 3/4.
Let crackP := (1 - 4/3 * r) / (PI * r * (1 - r)).
Let crackQ := (8 / (PI * (3 - 2 * r)) + 4 / (3 * PI * (1 - r))) / 5.
Lemma lim_crack : limit1_in (fun a => a * pqP (-1) 0 r (obl_f a) (obl_theta a)) in01 crackP 0 /\
  limit1_in (fun a => a * pqQ (-1) 0 r (obl_f a) (obl_theta a)) in01 crackQ 0.
Proof.
  assert (PP := PI_RGT_0). assert (T := lim_thin). assert (I0 := lim_id in01 0).
  assert (P1 : 0 < PI * r * (1 - r)) by (apply Rmult_lt_0_compat; [apply Rmult_lt_0_compat; lra|lra]).
  assert (P2 : 0 < PI / 4 * (3 - 2 * r)) by (apply Rmult_lt_0_compat; lra).
  set (w := fun a => a * ((3 * (a * thin a) - 2) / (1 - a^2))).
  assert (W : limit1_in w in01 0 0). { unfold w. eapply lim_eq; [lim; lra|]. field. }
  assert (Th : limit1_in (fun a => a * thin a) in01 0 0). { eapply lim_eq; [lim|]. ring. }
  assert (Fh : limit1_in (fun a => a * w a) in01 0 0). { eapply lim_eq; [lim|]. ring. }
  set (d2 := fun a => r * (2 * (1 - r) * (thin a - w a) - (3 - 4 * r) * (a * thin a) * thin a)).
  assert (D2 : limit1_in d2 in01 (PI * r * (1 - r)) 0). { unfold d2. eapply lim_eq; [lim|]. field. }
  set (d3 := fun a => w a * (1 - r) + thin a * (3/2 - r)).
  assert (D3 : limit1_in d3 in01 (PI / 4 * (3 - 2 * r)) 0). { unfold d3. eapply lim_eq; [lim|]. field. }
  assert (Ob : forall a, in01 a -> 0 < pF2 (-1) 0 r (obl_f a) (obl_theta a) /\ 0 < pF3 (-1) r (obl_f a) (obl_theta a) /\ 0 < pF4 (-1) r (obl_f a) (obl_theta a)).
  { intros a Ha. destruct (obl_bounds a Ha) as (? & ? & ?). destruct Ha. assert (0 < a^2) by nra. replace 0 with ((-1 - -1) / 3) at 2 by field.
    repeat split; [apply pos_F2|apply pos_F3|apply pos_F4]; lra. }
  assert (F2 : forall a, in01 a -> pF2 (-1) 0 r (obl_f a) (obl_theta a) = a * d2 a).
  { intros a Ha. rewrite obl_f_thin, obl_thin by auto. fold (w a). unfold pF2, d2. field. }
  assert (F3 : forall a, in01 a -> pF3 (-1) r (obl_f a) (obl_theta a) = a * d3 a).
  { intros a Ha. rewrite obl_f_thin, obl_thin by auto. fold (w a). unfold pF3, d3. field. }
  assert (Dp : forall a, in01 a -> d2 a <> 0 /\ d3 a <> 0).
  { intros a Ha. destruct (Ob a Ha) as (X & Y & _). rewrite F2 in X by auto. rewrite F3 in Y by auto. split; intros E; rewrite E in *; lra. }
  split.
  - apply lim_ext with (fun a => pF1 (-1) r (a * w a) (a * thin a) / d2 a).
    + eapply lim_eq; [apply lim_div; [unfold pF1; lim | exact D2 | lra]|].
      unfold crackP. field. repeat split; lra.
    + intros a Ha. destruct (Dp a Ha). assert (Ha' := Ha). destruct Ha'. unfold pqP. rewrite F2 by auto. rewrite obl_f_thin, obl_thin by auto. fold (w a). field. split; lra.
  - set (n := fun a => pF4 (-1) r (a * w a) (a * thin a) * pF5 (-1) 0 r (a * w a) (a * thin a) + pF6 (-1) 0 r (a * w a) (a * thin a) * pF7 (-1) 0 r (a * w a) (a * thin a)
      - pF8 (-1) 0 r (a * w a) (a * thin a) * pF9 (-1) 0 r (a * w a) (a * thin a)).
    assert (L4 : limit1_in (fun a => pF4 (-1) r (a * w a) (a * thin a)) in01 1 0). { unfold pF4. eapply lim_eq; [lim|]. field. }
    assert (L5 : limit1_in (fun a => pF5 (-1) 0 r (a * w a) (a * thin a)) in01 (4/3 * r) 0). { unfold pF5. eapply lim_eq; [lim|]. field. }
    assert (L6 : limit1_in (fun a => pF6 (-1) 0 r (a * w a) (a * thin a)) in01 0 0). { unfold pF6. eapply lim_eq; [lim|]. field. }
    assert (L7 : limit1_in (fun a => pF7 (-1) 0 r (a * w a) (a * thin a)) in01 2 0). { unfold pF7. eapply lim_eq; [lim|]. field. }
    assert (L8 : limit1_in (fun a => pF8 (-1) 0 r (a * w a) (a * thin a)) in01 (2 * r - 1) 0). { unfold pF8. eapply lim_eq; [lim; lra|]. field. }
    assert (L9 : limit1_in (fun a => pF9 (-1) 0 r (a * w a) (a * thin a)) in01 0 0). { unfold pF9. eapply lim_eq; [lim|]. field. }
    assert (Ln : limit1_in n in01 (4/3 * r) 0). { unfold n. eapply lim_eq; [lim|]. field. }
    apply lim_ext with (fun a => (2 / d3 a + a * (1 / pF4 (-1) r (a * w a) (a * thin a)) + n a / (d2 a * pF4 (-1) r (a * w a) (a * thin a))) / 5).
    + eapply lim_eq.
      * apply lim_div; [apply limit_plus; [apply limit_plus|]| apply lim_cst | lra].
        -- apply lim_div; [apply lim_cst | exact D3 | lra].
        -- apply limit_mul; [exact I0|]. apply lim_div; [apply lim_cst|exact L4|lra].
        -- apply lim_div; [exact Ln | apply limit_mul; [exact D2|exact L4] | lra].
      * unfold crackQ. field. repeat split; lra.
    + intros a Ha. destruct (Dp a Ha). assert (Ha' := Ha). destruct Ha'. destruct (Ob a Ha) as (_ & _ & X4). unfold pqQ. rewrite F2, F3 by auto. 
      rewrite !obl_f_thin, !obl_thin in * by auto. fold (w a) in *. fold (n a). field. repeat split; lra.
Qed.
End Thin.

(** ** Q is positive *)
Lemma pqQ_alt A k r f th : let B := (k - A) / 3 in pF2 A B r f th <> 0 -> pF3 A r f th <> 0 -> pF4 A r f th <> 0 ->
  pqQ A B r f th = (2 / pF3 A r f th + 2 / pF4 A r f th + (4 * r + (k + 1) * (3 - 4 * r)) / (3 * pF2 A B r f th)) / 5.
Proof.
  intros B N2 N3 N4. unfold pqQ.
  assert (X : pF4 A r f th * pF5 A B r f th + pF6 A B r f th * pF7 A B r f th - pF8 A B r f th * pF9 A B r f th
    = pF2 A B r f th + (4 * r + (k + 1) * (3 - 4 * r)) / 3 * pF4 A r f th) by (unfold pF2, pF4, pF5, pF6, pF7, pF8, pF9, B; field).
  rewrite X. field. auto.
Qed.
Lemma pos_Q A k r f th : -1 <= A -> -1 <= k -> 0 < r < 3/4 -> 0 < th <= 2/3 -> f <= 0 -> 0 <= f + th -> 0 < pqQ A ((k - A) / 3) r f th.
Proof.
  intros HA Hk Hr Ht Hf Hft. assert (N2 := pos_F2 A k r f th HA Hk Hr Ht Hf Hft). assert (N3 := pos_F3 A r f th HA Hr Ht Hf Hft). assert (N4 := pos_F4 A r f th HA Hr Ht Hf Hft).
  rewrite pqQ_alt by lra. apply Rdiv_lt_0_compat; [|lra]. assert (0 <= (k + 1) * (3 - 4 * r)) by (apply Rmult_le_pos; lra).
  assert (0 < 2 / pF3 A r f th) by (apply Rdiv_lt_0_compat; lra). assert (0 < 2 / pF4 A r f th) by (apply Rdiv_lt_0_compat; lra).
  assert (0 < (4 * r + (k + 1) * (3 - 4 * r)) / (3 * pF2 A ((k - A) / 3) r f th)) by (apply Rdiv_lt_0_compat; lra). lra.
Qed.
Lemma obl_pos Km Gm Ki Gi al : 0 < Km -> 0 < Gm -> 0 <= Ki -> 0 <= Gi -> 0 < al < 1 ->
  let A := Gi / Gm - 1 in let B := (Ki / Km - Gi / Gm) / 3 in let r := Gm / (Km + 4/3*Gm) in
  0 < pqP A B r (obl_f al) (obl_theta al) /\ 0 < pqQ A B r (obl_f al) (obl_theta al).
Proof.
  intros HK HG HKi HGi H A B r. destruct (obl_bounds al H) as (B1 & B2 & B3). assert (al^2 > 0) by nra.
  assert (0 < obl_theta al <= 2/3) by nra. assert (obl_f al <= 0) by nra.
  assert (HA := obl_A Gm Gi HG HGi). assert (Hk := obl_k Km Gm Ki Gi HK HKi). assert (Hr := obl_r Km Gm HK HG). fold A in HA. fold A B in Hk. fold r in Hr.
  split.
  - unfold pqP. apply Rdiv_lt_0_compat; [apply pos_F1; auto; lra|]. apply (obl_den Km Gm Ki Gi); auto; lra.
  - replace B with ((A + 3 * B - A) / 3) by field. apply pos_Q; auto; lra.
Qed.

(** ** The self-consistent equations *)
Lemma PQ_elem_scalar Km Gm Ki Gi a : a <> 1 -> EM_PQ_elem Km Gm Ki Gi a = EM_PQ NumPy Km Gm Ki Gi a.
Proof.
  intros N. unfold EM_PQ_elem, EM_PQ. destruct (Req_EM_T a 1); [contradiction|]. destruct (Rlt_dec a 1); [|destruct (Rlt_dec 1 a); [|lra]].
  all: match goal with |- bind ?e _ = _ => destruct e; try reflexivity end.
  all: rewrite ?bind_fin; cbn [bind]; match goal with |- call ?e _ = _ => destruct e as [[? ?]| |]; reflexivity end.
Qed.
Section SelfC.
Variables (Ks Gs : R).
Hypotheses (HK : 0 < Ks) (HG : 0 < Gs).
Definition al_used (a : R) : R := if Req_EM_T a 1 then 0.999 else a.
Lemma al_used_in a : 0 < a <= 1 -> 0 < al_used a < 1.
Proof. intros H. unfold al_used. destruct (Req_EM_T a 1); dec; lra. Qed.
Definition phP (p : phase) : R := pqP (ph_G p / Gs - 1) ((ph_K p / Ks - ph_G p / Gs) / 3) (Gs / (Ks + 4/3*Gs)) (obl_f (al_used (ph_al p))) (obl_theta (al_used (ph_al p))).
Definition phQ (p : phase) : R := pqQ (ph_G p / Gs - 1) ((ph_K p / Ks - ph_G p / Gs) / 3) (Gs / (Ks + 4/3*Gs)) (obl_f (al_used (ph_al p))) (obl_theta (al_used (ph_al p))).
Lemma elems_phases e L : List.Forall passive L ->
  EM_PQ_elems e (Fin Ks) (Fin Gs) (map (fun p => Fin (ph_K p)) L) (map (fun p => Fin (ph_G p)) L) (map (fun p => al_used (ph_al p)) L)
  = Ret (map (fun p => Fin (phP p)) L, map (fun p => Fin (phQ p)) L).
Proof.
  induction L as [|p L IH]; intros H; [reflexivity|]. cbn [map EM_PQ_elems]. inversion_clear H as [|? ? (X & Y & Z & W) HL]. apply al_used_in in W.
  rewrite PQ_elem_scalar by lra. rewrite obl_eval by lra. rewrite call_ret. rewrite IH by auto. reflexivity.
Qed.
Lemma Berryman_phases L : List.Forall passive L ->
  EM_Berryman_func DFloat (Fin Ks) (Fin Gs) (map (fun p => Fin (ph_K p)) L) (map (fun p => Fin (ph_G p)) L) (map (fun p => Fin (ph_x p)) L) (map ph_al L)
  = Ret ((Fin (sumf (fun p => ph_x p * (ph_K p - Ks) * phP p) L), Fin (sumf (fun p => ph_x p * (ph_G p - Gs) * phQ p) L)), map (fun p => al_used (ph_al p)) L).
Proof.
  intros H. unfold EM_Berryman_func, EM_PQ_vectorize, EM_PQ_clobber. rewrite map_map. fold al_used.
  change (map (fun x => if Req_EM_T (ph_al x) 1 then 0.999 else ph_al x) L) with (map (fun p => al_used (ph_al p)) L).
  rewrite elems_phases by auto. rewrite !call_ret. cbv beta iota zeta. rewrite !map_map. repeat (rewrite !np_bc_map; cbn [call]).
  change (map (fun x => fmul (fmul (Fin (ph_x x)) (fsub (Fin (ph_K x)) (Fin Ks))) (Fin (phP x))) L) with (map (fun x => Fin (ph_x x * (ph_K x - Ks) * phP x)) L).
  rewrite fsum_map, bind_fin. cbn [call]. repeat (rewrite !np_bc_map; cbn [call]).
  change (map (fun x => fmul (fmul (Fin (ph_x x)) (fsub (Fin (ph_G x)) (Fin Gs))) (Fin (phQ x))) L) with (map (fun x => Fin (ph_x x * (ph_G x - Gs) * phQ x)) L).
  rewrite fsum_map, bind_fin. reflexivity.
Qed.
Lemma phases_conc L : List.Forall passive L -> List.Forall (fun p => let nu := poisson Ks Gs in let a := al_used (ph_al p) in
  concentration (esh_S nu a) (esh_shear nu a) Ks Gs (ph_K p) (ph_G p) (phP p) (phQ p) /\ 0 < phP p /\ 0 < phQ p) L.
Proof.
  apply Forall_impl. intros p (X & Y & Z & W). apply al_used_in in W. split; [apply obl_conc; auto|apply obl_pos; auto].
Qed.
End SelfC.

From Verif Require Import L_EM6.
From Coq Require Ranalysis5.
(** ** All oblate aspect ratios and the sphere *)
Section All.
Variables (m : mode) (Km Gm Ki Gi : R).
Hypotheses (HK : 0 < Km) (HG : 0 < Gm) (HKi : 0 <= Ki) (HGi : 0 <= Gi).
Let A := Gi / Gm - 1.
Let B := (Ki / Km - Gi / Gm) / 3.
Let r := Gm / (Km + 4/3*Gm).
Definition sphP (al : R) : R := if Req_EM_T al 1 then pqP A B r (-(2/5)) (2/3) else pqP A B r (obl_f al) (obl_theta al).
Definition sphQ (al : R) : R := if Req_EM_T al 1 then pqQ A B r (-(2/5)) (2/3) else pqQ A B r (obl_f al) (obl_theta al).
Lemma PQ_all al : 0 < al <= 1 ->
  EM_PQ m (Fin Km) (Fin Gm) (Fin Ki) (Fin Gi) al = Ret (Fin (sphP al), Fin (sphQ al)) /\
  concentration (spheroid_S (poisson Km Gm) al) (spheroid_shear (poisson Km Gm) al) Km Gm Ki Gi (sphP al) (sphQ al) /\ 0 < sphP al /\ 0 < sphQ al.
Proof.
  intros H. unfold spheroid_S, spheroid_shear, sphP, sphQ. destruct (Req_EM_T al 1) as [->|N].
  - split; [apply sph_eval; auto|]. split; [apply sph_conc; auto|].
    assert (HA := obl_A Gm Gi HG HGi). assert (Hk := obl_k Km Gm Ki Gi HK HKi). assert (Hr := obl_r Km Gm HK HG). fold A in HA. fold A B in Hk. fold r in Hr.
    split.
    + unfold pqP. apply Rdiv_lt_0_compat; [apply pos_F1; auto; lra|]. apply (obl_den Km Gm Ki Gi); auto; lra.
    + replace B with ((A + 3 * B - A) / 3) by field. apply pos_Q; auto; lra.
  - split; [apply obl_eval; auto; lra|]. split; [apply obl_conc; auto; lra|]. apply obl_pos; auto; lra.
Qed.
Lemma PQ_lim1 : limit1_in sphP in01 (sphP 1) 1 /\ limit1_in sphQ in01 (sphQ 1) 1.
Proof.
  destruct (lim_pq1 Km Gm Ki Gi HK HG HKi HGi) as (L1 & L2). unfold sphP, sphQ. destruct (Req_EM_T 1 1); [|lra]. split.
  - eapply lim_ext; [exact L1|]. intros a (? & ?). cbv beta. destruct (Req_EM_T a 1); [lra|reflexivity].
  - eapply lim_ext; [exact L2|]. intros a (? & ?). cbv beta. destruct (Req_EM_T a 1); [lra|reflexivity].
Qed.
End All.

(** ** Thin empty cracks *)
Lemma crack_lim K G : 0 < K -> 0 < G ->
  limit1_in (fun a => 4/3 * PI * a * sphP K G 0 0 a) in01 (ck (poisson K G)) 0 /\
  limit1_in (fun a => 4/3 * PI * a * sphQ K G 0 0 a) in01 (cg (poisson K G)) 0.
Proof.
  intros HK HG. assert (Hr := obl_r K G HK HG). destruct (lim_crack _ Hr) as (L1 & L2). assert (PP := PI_RGT_0).
  assert (E : forall a, in01 a -> sphP K G 0 0 a = pqP (-1) 0 (G / (K + 4/3*G)) (obl_f a) (obl_theta a) /\ sphQ K G 0 0 a = pqQ (-1) 0 (G / (K + 4/3*G)) (obl_f a) (obl_theta a)).
  { intros a (? & ?). unfold sphP, sphQ. destruct (Req_EM_T a 1); [lra|]. replace (0 / G - 1) with (-1) by (field; lra).
    replace ((0 / K - 0 / G) / 3) with 0 by (field; lra). auto. }
  assert (0 < K * G) by nra. assert (0 < K * K) by nra. assert (0 < G * G) by nra.
  split.
  - eapply lim_ext with (fun a => 4/3 * PI * (a * pqP (-1) 0 (G / (K + 4/3*G)) (obl_f a) (obl_theta a))).
    + eapply lim_eq; [apply limit_mul; [apply lim_cst|exact L1]|]. unfold ck, poisson. field. repeat split; try lra; nra.
    + intros a Ha. destruct (E a Ha) as (-> & _). ring.
  - eapply lim_ext with (fun a => 4/3 * PI * (a * pqQ (-1) 0 (G / (K + 4/3*G)) (obl_f a) (obl_theta a))).
    + eapply lim_eq; [apply limit_mul; [apply lim_cst|exact L2]|]. unfold cg, poisson. field. repeat split; try lra; nra.
    + intros a Ha. destruct (E a Ha) as (_ & ->). ring.
Qed.

(** ** The differential scheme *)
Lemma relax (h d : R -> R) a b : a <= b -> (forall t, a <= t <= b -> derivable_pt_lim h t (d t) /\ h t * d t <= 0) -> 0 <= h a * h b /\ h b ^ 2 <= h a ^ 2.
Proof.
  intros Hab H.
  assert (D : forall x y, a <= x -> x <= y -> y <= b -> h y ^ 2 <= h x ^ 2).
  { intros x y Hx Hxy Hy. destruct (Req_dec x y) as [->|N]; [lra|].
    destruct (MVT_cor2 (fun t => h t ^ 2) (fun t => 2 * (h t * d t)) x y) as (c & E & Hc); [lra| |].
    - intros c Hc. destruct (H c) as (Hd & _); [lra|]. apply is_derive_Reals. apply is_derive_Reals in Hd.
      evar_last. { apply (is_derive_pow h 2 c (d c)). exact Hd. } cbn. ring.
    - destruct (H c) as (_ & Hn); [lra|]. assert (2 * (h c * d c) * (y - x) <= 0) by nra. lra. }
  split; [|apply D; lra].
  destruct (Rle_or_lt 0 (h a * h b)) as [|Neg]; [auto|exfalso].
  assert (Cont : forall t, a <= t <= b -> continuity_pt h t).
  { intros t Ht. apply derivable_continuous_pt. exists (d t). apply H. exact Ht. }
  assert (Z : exists z, a <= z <= b /\ h z = 0).
  { assert (a <> b). { intros ->. assert (0 <= h b ^ 2) by apply pow2_ge_0. lra. }
    assert (h a <> 0) by (intros Q; rewrite Q in Neg; lra).
    destruct (Rle_or_lt 0 (h a)).
    - destruct (Ranalysis5.IVT_interv (fun t => - h t) a b) as (z & Hz & E); [|lra|lra|nra|].
      + intros t Ht. apply (continuity_pt_opp h). auto.
      + exists z. split; [auto|lra].
    - destruct (Ranalysis5.IVT_interv h a b) as (z & Hz & E); [auto|lra|lra|nra|]. exists z. auto. }
  destruct Z as (z & Hz & E). assert (X := D z b ltac:(lra) ltac:(lra) ltac:(lra)). rewrite E in X. assert (h b ^ 2 = 0) by nra. assert (h b = 0) by nra. nra.
Qed.
Lemma relax_to (k d : R -> R) c a b : a <= b -> (forall t, a <= t <= b -> derivable_pt_lim k t (d t) /\ (k t - c) * d t <= 0) -> Rmin (k a) c <= k b <= Rmax (k a) c.
Proof.
  intros Hab H. destruct (relax (fun t => k t - c) d a b Hab) as (X & Y).
  { intros t Ht. destruct (H t Ht) as (Hd & Hn). split; [|exact Hn]. apply is_derive_Reals. apply is_derive_Reals in Hd. auto_derive; [eexists; exact Hd|].
    replace (Derive (fun x : R => k x) t) with (d t) by (symmetry; apply is_derive_unique; exact Hd). ring. }
  cbv beta in X, Y. set (x := k a - c) in *. set (y := k b - c) in *.
  assert (Z : x <= 0 -> x <= y <= 0).
  { intros Hx. destruct (Rle_or_lt y 0); [split; nra|]. assert (x = 0) by (destruct Hx; [nra|lra]). split; nra. }
  assert (Z' : 0 <= x -> 0 <= y <= x).
  { intros Hx. destruct (Rle_or_lt 0 y); [split; nra|]. assert (x = 0) by (destruct Hx; [nra|lra]). split; nra. }
  unfold x, y in *. unfold Rmin, Rmax. destruct (Rle_dec (k a) c); lra.
Qed.
Lemma DEM_eval m K G Ki Gi al t : 0 < K -> 0 < G -> 0 <= Ki -> 0 <= Gi -> 0 < al <= 1 -> t <> 1 ->
  EM_DEM m (Fin K) (Fin G) (Fin t) (Fin Gi, Fin Ki, al) = Ret (Fin (1 / (1 - t) * (Ki - K) * sphP K G Ki Gi al), Fin (1 / (1 - t) * (Gi - G) * sphQ K G Ki Gi al)).
Proof.
  intros HK HG HKi HGi H Ht. unfold EM_DEM. destruct (PQ_all m K G Ki Gi HK HG HKi HGi al H) as (-> & _). rewrite call_ret.
  assert (1 - t <> 0) by lra. fls. reflexivity.
Qed.

(** ** Thin cracks filled with fluid *)
Lemma lim_fluid_crack r q : 0 < r < 3/4 -> 0 <= q ->
  limit1_in (fun a => a * pqP (-1) (a * q) r (obl_f a) (obl_theta a)) in01 ((1 - 4/3 * r) / (PI * r * (1 - r) + q * (3 - 4 * r))) 0.
Proof.
  intros Hr Hq. assert (PP := PI_RGT_0). assert (T := lim_thin). assert (I0 := lim_id in01 0).
  assert (P1 : 0 < PI * r * (1 - r)) by (apply Rmult_lt_0_compat; [apply Rmult_lt_0_compat; lra|lra]).
  assert (P2 : 0 <= q * (3 - 4 * r)) by (apply Rmult_le_pos; lra).
  set (w := fun a => a * ((3 * (a * thin a) - 2) / (1 - a^2))).
  assert (W : limit1_in w in01 0 0). { unfold w. eapply lim_eq; [lim; lra|]. field. }
  set (d2 := fun a => r * (2 * (1 - r) * (thin a - w a) - (3 - 4 * r) * (a * thin a) * thin a)
    + q * (3 - 4 * r) * (1 - 3/2 * (a * w a * (1 - r) + a * thin a * (1 + r - 2 * r * (a * thin a))))).
  assert (D2 : limit1_in d2 in01 (PI * r * (1 - r) + q * (3 - 4 * r)) 0). { unfold d2. eapply lim_eq; [lim|]. field. }
  assert (F2 : forall a, in01 a -> pF2 (-1) (a * q) r (obl_f a) (obl_theta a) = a * d2 a).
  { intros a Ha. rewrite obl_f_thin, obl_thin by auto. fold (w a). unfold pF2, d2. field. }
  assert (Dp : forall a, in01 a -> d2 a <> 0).
  { intros a Ha. assert (X := F2 a Ha). destruct (obl_bounds a Ha) as (? & ? & ?). assert (Ha' := Ha). destruct Ha'. assert (0 < a^2) by nra. assert (0 <= a * q) by nra.
    assert (Y := pos_F2 (-1) (3 * (a * q) - 1) r (obl_f a) (obl_theta a)). replace ((3 * (a * q) - 1 - -1) / 3) with (a * q) in Y by field.
    intros E. rewrite X, E in Y. lra. }
  apply lim_ext with (fun a => pF1 (-1) r (a * w a) (a * thin a) / d2 a).
  - eapply lim_eq; [apply lim_div; [unfold pF1; lim | exact D2 | lra]|]. field. lra.
  - intros a Ha. assert (X := Dp a Ha). assert (Ha' := Ha). destruct Ha'. unfold pqP. rewrite F2 by auto. rewrite obl_f_thin, obl_thin by auto. fold (w a). field. split; lra.
Qed.
Lemma fluid_crack_lim K G kap : 0 < K -> 0 < G -> 0 <= kap -> let nu := poisson K G in
  limit1_in (fun a => 4/3 * PI * a * sphP K G (a * kap) 0 a) in01 (ck nu / (1 + 4 / (3 * PI) * ((1 - nu^2) / (1 - 2 * nu)) * (kap / K))) 0.
Proof.
  intros HK HG Hk nu. assert (Hr := obl_r K G HK HG). assert (0 <= kap / (3 * K)) by (apply le_div_iff; lra).
  assert (L := lim_fluid_crack (G / (K + 4/3*G)) (kap / (3 * K)) Hr H). assert (PP := PI_RGT_0).
  assert (0 < K * G) by nra. assert (0 < K * K) by nra. assert (0 < G * G) by nra.
  eapply lim_ext with (fun a => 4/3 * PI * (a * pqP (-1) (a * (kap / (3 * K))) (G / (K + 4/3*G)) (obl_f a) (obl_theta a))).
  - eapply lim_eq; [apply limit_mul; [apply lim_cst|exact L]|].
    set (r := G / (K + 4/3*G)) in *.
    assert (Y : (1 - nu^2) / (1 - 2 * nu) = (3 - 4 * r) / (4 * r * (1 - r))).
    { unfold nu, poisson, r. field. repeat split; lra. }
    unfold ck. replace (16 / 9 * (1 - nu^2) / (1 - 2 * nu)) with (16 / 9 * ((1 - nu^2) / (1 - 2 * nu))) by (unfold Rdiv; ring). rewrite Y.
    assert (0 < PI * r * (1 - r)) by (apply Rmult_lt_0_compat; [apply Rmult_lt_0_compat; lra|lra]). assert (0 <= kap * (3 - 4 * r)) by (apply Rmult_le_pos; lra).
    assert (0 < 3 * K * (PI * r * (1 - r)) ) by (apply Rmult_lt_0_compat; lra). clearbody r. field. repeat split; try lra; nra.
  - intros a (? & ?). unfold sphP. destruct (Req_EM_T a 1); [lra|]. replace (0 / G - 1) with (-1) by (field; lra).
    replace ((a * kap / K - 0 / G) / 3) with (a * (kap / (3 * K))) by (field; lra). ring.
Qed.
