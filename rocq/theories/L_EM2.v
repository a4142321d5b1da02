(** * Hudson's crack models. *)
From Verif Require Import Fl M_Utils M_EM Spec RealLemmas L_Utils.
Open Scope R_scope.

Ltac mp := repeat first [assumption | apply Rmult_lt_0_compat].
(** Strain-independent pieces of Hudson's first-order correction. *)
Lemma hudson_kapa lam G Ki Gi al : G <> 0 -> al <> 0 -> lam + G <> 0 ->
  (Ki + 4 * Gi / 3) * (lam + 2 * G) / (PI * al * G * (lam + G))
  = (Ki + 4/3*Gi) / (PI * al * G) * ((lam + 2*G) / (lam + G)).
Proof. intros. assert (PI <> 0) by (apply Rgt_not_eq, PI_RGT_0). field. auto. Qed.
Lemma hudson_M lam G Gi al : G <> 0 -> al <> 0 -> 3*lam + 4*G <> 0 ->
  4 * Gi * (lam + G) / (PI * al * G * (3 * lam + 4 * G))
  = 4 * Gi / (PI * al * G) * ((lam + G) / (3*lam + 4*G)).
Proof. intros. assert (PI <> 0) by (apply Rgt_not_eq, PI_RGT_0). field. auto. Qed.

(** Hypotheses on host and filling under which the openings are finite and non-negative. *)
Definition host (K G Ki Gi al : R) : Prop := 0 < K /\ 0 < G /\ 0 <= Ki /\ 0 <= Gi /\ 0 < al.
Lemma host_facts K G Ki Gi al : host K G Ki Gi al ->
  let lam := K - 2 * G / 3 in
  0 < lam + G /\ 0 < lam + 2 * G /\ 0 < 3 * lam + 4 * G /\ 0 < PI /\
  0 <= (Ki + 4 * Gi / 3) * (lam + 2 * G) / (PI * al * G * (lam + G)) /\
  0 <= 4 * Gi * (lam + G) / (PI * al * G * (3 * lam + 4 * G)).
Proof.
  intros (HK & HG & HKi & HGi & Ha) lam. assert (P := PI_RGT_0).
  assert (0 < lam + G) by (unfold lam; lra). assert (0 < lam + 2 * G) by (unfold lam; lra).
  assert (0 < 3 * lam + 4 * G) by (unfold lam; lra).
  split; [auto|]. split; [auto|]. split; [auto|]. split; [exact P|].
  split; (apply Rmult_le_pos; [|left; apply Rinv_0_lt_compat; mp]).
  - apply Rmult_le_pos; lra.
  - apply Rmult_le_pos; [|lra]. lra.
Qed.

Ltac hud_start K G Ki Gi al Hh :=
  let lam := fresh "lam" in
  destruct (host_facts K G Ki Gi al Hh) as (Hl1 & Hl2 & Hl3 & HPI & Hk & HM);
  destruct Hh as (HK & HG & HKi & HGi & Hal).

(** First-order coefficients in closed form. *)
Definition h_c (lam G crd U1 U3 : R) : rmat := (* vti part, to be subtracted *)
  vti (lam^2 * crd * U3 / G) ((lam + 2*G)^2 * crd * U3 / G) (lam * (lam + 2*G) * crd * U3 / G) (G * crd * U1) 0.

Lemma fin_U1 m lam G Gi al : 0 < G -> 0 < 3*lam + 4*G -> 0 <> al ->
  let M := 4 * Gi * (lam + G) / (PI * al * G * (3 * lam + 4 * G)) in 1 + M <> 0 ->
  fdiv m (Fin (16 * (lam + 2 * G))) (Fin (3 * (3 * lam + 4 * G) * (1 + M))) = Fin (penny_U1 lam G Gi al).
Proof.
  intros HG H3 Ha M HM. rewrite fdiv_fin.
  - unfold penny_U1. rewrite <- hudson_M by lra. fold M. f_equal. field. lra.
  - apply Rmult_integral_contrapositive_currified; lra.
Qed.
Lemma fin_U3 m lam G Ki Gi al : 0 < G -> 0 < lam + G -> 0 <> al ->
  let k := (Ki + 4 * Gi / 3) * (lam + 2 * G) / (PI * al * G * (lam + G)) in 1 + k <> 0 ->
  fdiv m (Fin (4 * (lam + 2 * G))) (Fin (3 * (lam + G) * (1 + k))) = Fin (penny_U3 lam G Ki Gi al).
Proof.
  intros HG H3 Ha k Hk. rewrite fdiv_fin.
  - unfold penny_U3. rewrite <- hudson_kapa by lra. fold k. f_equal. field. lra.
  - apply Rmult_integral_contrapositive_currified; lra.
Qed.

Section H.
Variables (m : mode) (K G Ki Gi al crd : R).
Hypothesis Hh : host K G Ki Gi al.
Let lam := K - 2 * G / 3.
Let U1 := penny_U1 lam G Gi al.
Let U3 := penny_U3 lam G Ki Gi al.
Let q := 15 * lam^2 / G^2 + 28 * lam / G + 28.
Let d2 (order : Z) := if Z.eqb order 2 then 1 else 0.

Lemma hudson_eval order axis : (order = 1 \/ order = 2)%Z ->
  EM_hudson m (Fin K) (Fin G) (Fin Ki) (Fin Gi) (Fin al) (Fin crd) order axis =
  let c11 := lam + 2 * G - lam^2 * crd * U3 / G + d2 order * (q / 15 * lam^2 / (lam + 2*G) * (crd * U3)^2) in
  let c13 := lam - lam * (lam + 2*G) * crd * U3 / G + d2 order * (q / 15 * lam * (crd * U3)^2) in
  let c33 := lam + 2 * G - (lam + 2*G)^2 * crd * U3 / G + d2 order * (q / 15 * (lam + 2*G) * (crd * U3)^2) in
  let c44 := G - G * crd * U1 + d2 order * (2 / 15 * G * (3*lam + 8*G) / (lam + 2*G) * (crd * U1)^2) in
  if Z.eqb axis 3 then Ret (finmat (vti c11 c33 c13 c44 G))
  else if Z.eqb axis 1 then Ret (finmat (hti c33 c11 c13 G c44))
  else Raise UnboundLocalError.
Proof.
  intros Ho. hud_start K G Ki Gi al Hh. fold lam in Hl1, Hl2, Hl3, Hk, HM.
  unfold EM_hudson.
  repeat (first [fl1 | rewrite fdiv_fin by lra]; cbv beta). fold lam.
  repeat (first [fl1 | rewrite fdiv_fin by lra]; cbv beta).
  assert (N1 : PI * al * G * (lam + G) <> 0) by (apply Rgt_not_eq; mp).
  assert (N2 : PI * al * G * (3 * lam + 4 * G) <> 0) by (apply Rgt_not_eq; mp).
  assert (N3 : G^2 <> 0) by (apply pow_nonzero; lra).
  rewrite (fdiv_fin m _ _ N1). fl1; cbv beta. rewrite (fdiv_fin m _ _ N2). fl1; cbv beta.
  repeat (fl1; cbv beta).
  rewrite fin_U1 by lra. fl1; cbv beta. rewrite fin_U3 by lra. fl1; cbv beta. fold U1 U3.
  repeat (first [fl1 | rewrite fdiv_fin by (assumption || lra)]; cbv beta). fold q.
  repeat (first [fl1 | rewrite fdiv_fin by (assumption || lra)]; cbv beta).
  destruct Ho as [-> | ->]; cbn [Z.eqb Pos.eqb]; fls; unfold d2; cbn [Z.eqb Pos.eqb]; cbv zeta;
  (destruct (Z.eqb axis 3); [rewrite write_VTI_eval | destruct (Z.eqb axis 1); [rewrite write_HTI_eval|reflexivity]]);
  apply f_equal, finmat_ext; intros i j Hi Hj; fin6 i Hi; fin6 j Hj; unfold vti, hti, ofrows; cbn [nth];
  try reflexivity; try (field; lra).
Qed.
End H.

(** ** The corrections as tensors *)
Lemma hudson_contract lam G (X Y : nat -> nat -> R) :
  sum3 (fun r => sum3 (fun s => sum3 (fun t => sum3 (fun u =>
    X r s * hudson_chi lam G r s t u * Y t u)))) =
  let b := G / (lam + 2*G) in
  ((4 + b) * sum3 (fun r => sum3 (fun s => X r s * Y r s))
   - (1 - b) * (sum3 (fun r => sum3 (fun s => X r s * Y s r))
                + sum3 (fun r => X r r) * sum3 (fun r => Y r r))) / 15.
Proof.
  cbv zeta. unfold hudson_chi. generalize (G / (lam + 2*G)) as b. intros b.
  unfold sum3, kron; cbn [Nat.eqb]. field.
Qed.
(** Closed form of the loss for an isotropic host and a unit normal. *)
Lemma kron_sum i f : (i < 3)%nat -> sum3 (fun r => kron i r * f r) = f i.
Proof. intros H. fin3 i; unfold sum3, kron; cbn [Nat.eqb]; ring. Qed.
Lemma traction_iso K G C0 n i j r : is_isotropic K G C0 -> (i < 3)%nat -> (j < 3)%nat -> (r < 3)%nat ->
  traction C0 n i j r = (K - 2*G/3) * kron i j * n r + G * (kron i r * n j + kron j r * n i).
Proof.
  intros H Hi Hj Hr. unfold traction, sum3. rewrite !H by lia.
  fin3 i; fin3 j; fin3 r; unfold kron; cbn [Nat.eqb]; ring.
Qed.
Definition loss_form (lam G U1 U3 : R) (n : nat -> R) (i j k l : nat) : R :=
  U1 * (lam^2 * kron i j * kron k l + 2 * lam * G * (kron i j * (n k * n l) + kron k l * (n i * n j))
        + G^2 * (kron i k * (n j * n l) + kron i l * (n j * n k) + kron j k * (n i * n l) + kron j l * (n i * n k)))
  + (U3 - U1) * (lam^2 * kron i j * kron k l + 2 * lam * G * (kron i j * (n k * n l) + kron k l * (n i * n j))
        + 4 * G^2 * (n i * n j * n k * n l)).
Lemma loss_closed K G C0 U1 U3 n i j k l : is_isotropic K G C0 -> sum3 (fun r => n r * n r) = 1 -> ax4 i j k l ->
  crack_loss C0 U1 U3 n i j k l = loss_form (K - 2*G/3) G U1 U3 n i j k l.
Proof.
  intros H N (Hi & Hj & Hk & Hl). set (lam := K - 2*G/3).
  set (T := fun i j r => lam * kron i j * n r + G * (kron i r * n j + kron j r * n i)).
  assert (E : crack_loss C0 U1 U3 n i j k l =
    U1 * sum3 (fun r => T i j r * T k l r) + (U3 - U1) * sum3 (fun r => n r * T i j r) * sum3 (fun r => n r * T k l r)).
  { unfold crack_loss, T. unfold sum3. rewrite !(traction_iso K G C0 n _ _ _ H) by lia. fold lam.
    unfold kron; cbn [Nat.eqb]. ring. }
  assert (F : forall a b, (a < 3)%nat -> (b < 3)%nat -> sum3 (fun r => n r * T a b r) = lam * kron a b + 2 * G * (n a * n b)).
  { intros a b Ha Hb. unfold T.
    replace (sum3 (fun r => n r * (lam * kron a b * n r + G * (kron a r * n b + kron b r * n a)))) with
      (lam * kron a b * sum3 (fun r => n r * n r) + G * (n b * sum3 (fun r => kron a r * n r) + n a * sum3 (fun r => kron b r * n r)))
      by (unfold sum3; ring).
    rewrite N, !kron_sum by assumption. ring. }
  rewrite E, !F by assumption.
  assert (P : sum3 (fun r => T i j r * T k l r) =
    lam^2 * kron i j * kron k l * sum3 (fun r => n r * n r)
    + lam * G * kron i j * (n l * sum3 (fun r => kron k r * n r) + n k * sum3 (fun r => kron l r * n r))
    + lam * G * kron k l * (n j * sum3 (fun r => kron i r * n r) + n i * sum3 (fun r => kron j r * n r))
    + G^2 * (n j * n l * sum3 (fun r => kron i r * kron k r) + n j * n k * sum3 (fun r => kron i r * kron l r)
             + n i * n l * sum3 (fun r => kron j r * kron k r) + n i * n k * sum3 (fun r => kron j r * kron l r))).
  { unfold T, sum3. ring. }
  rewrite P, N, !kron_sum by assumption.
  assert (S : forall a b, kron a b = kron b a) by (intros; unfold kron; rewrite Nat.eqb_sym; reflexivity).
  rewrite (S k i), (S l i), (S k j), (S l j). unfold loss_form. ring.
Qed.
Lemma axis_unit a : (a < 3)%nat -> sum3 (fun r => axis_dir a r * axis_dir a r) = 1.
Proof. intros H. fin3 a; unfold sum3, axis_dir, kron; cbn [Nat.eqb]; ring. Qed.
Lemma polar_unit th ph : sum3 (fun r => polar_dir th ph r * polar_dir th ph r) = 1.
Proof.
  unfold sum3, polar_dir; cbn [nth].
  generalize (sin2_cos2 th) (sin2_cos2 ph). unfold Rsqr. intros A B.
  replace (sin th * cos ph * (sin th * cos ph) + sin th * sin ph * (sin th * sin ph) + cos th * cos th)
    with (sin th * sin th * (sin ph * sin ph + cos ph * cos ph) + cos th * cos th) by ring.
  rewrite B. lra.
Qed.

(** The losses along the axes. *)
Lemma loss_axis3 K G U1 U3 i j k l : ax4 i j k l ->
  let lam := K - 2 * G / 3 in
  crack_loss (iso K G) U1 U3 (axis_dir 2) i j k l =
  tensor (vti (lam^2 * U3) ((lam + 2*G)^2 * U3) (lam * (lam + 2*G) * U3) (G^2 * U1) 0) i j k l.
Proof.
  intros A lam. rewrite (loss_closed K G) by (try apply iso_isotropic; try apply axis_unit; auto; lia).
  fold lam. destruct A as (Hi & Hj & Hk & Hl).
  fin3 i; fin3 j; fin3 k; fin3 l;
  unfold loss_form, tensor, axis_dir, kron, vti, ofrows; cbn [vgt nth Nat.eqb]; ring.
Qed.
Lemma loss_axis1 K G U1 U3 i j k l : ax4 i j k l ->
  let lam := K - 2 * G / 3 in
  crack_loss (iso K G) U1 U3 (axis_dir 0) i j k l =
  tensor (hti ((lam + 2*G)^2 * U3) (lam^2 * U3) (lam * (lam + 2*G) * U3) 0 (G^2 * U1)) i j k l.
Proof.
  intros A lam. rewrite (loss_closed K G) by (try apply iso_isotropic; try apply axis_unit; auto; lia).
  fold lam. destruct A as (Hi & Hj & Hk & Hl).
  fin3 i; fin3 j; fin3 k; fin3 l;
  unfold loss_form, tensor, axis_dir, kron, hti, ofrows; cbn [vgt nth Nat.eqb]; ring.
Qed.
Lemma loss_axis2 K G U1 U3 i j k l : ax4 i j k l ->
  let lam := K - 2 * G / 3 in
  crack_loss (iso K G) U1 U3 (axis_dir 1) i j k l =
  tensor (ortho (lam^2 * U3) ((lam + 2*G)^2 * U3) (lam^2 * U3) (lam * (lam + 2*G) * U3) (lam^2 * U3) (lam * (lam + 2*G) * U3)
           (G^2 * U1) 0 (G^2 * U1)) i j k l.
Proof.
  intros A lam. rewrite (loss_closed K G) by (try apply iso_isotropic; try apply axis_unit; auto; lia).
  fold lam. destruct A as (Hi & Hj & Hk & Hl).
  fin3 i; fin3 j; fin3 k; fin3 l;
  unfold loss_form, tensor, axis_dir, kron, ortho, ofrows; cbn [vgt nth Nat.eqb]; ring.
Qed.

(** Second order. *)
Lemma second_form lam G c (L : rmat) i j k l : G <> 0 -> lam + 2*G <> 0 ->
  hudson_second lam G (fun i j k l => c * tensor L i j k l) i j k l =
  c^2 / G * (let g := G / (lam + 2*G) in
  ((4 + g) * sum3 (fun r => sum3 (fun s => tensor L i j r s * tensor L r s k l))
   - (1 - g) * (sum3 (fun r => sum3 (fun s => tensor L i j r s * tensor L s r k l))
                + sum3 (fun r => tensor L i j r r) * sum3 (fun r => tensor L r r k l))) / 15).
Proof.
  intros. unfold hudson_second.
  rewrite (hudson_contract lam G (fun r s => c * tensor L i j r s) (fun t u => c * tensor L t u k l)).
  cbv zeta. unfold sum3. field. auto.
Qed.
Lemma second_ext lam G c1 c1' i j k l : (forall i j k l, ax4 i j k l -> c1 i j k l = c1' i j k l) -> ax4 i j k l ->
  hudson_second lam G c1 i j k l = hudson_second lam G c1' i j k l.
Proof.
  intros H (Hi & Hj & Hk & Hl). unfold hudson_second. f_equal. unfold sum3.
  repeat match goal with |- context [c1 ?a ?b ?c ?d] => rewrite (H a b c d) by (repeat split; lia) end.
  reflexivity.
Qed.

Section HS.
Variables (m : mode) (K G Ki Gi al crd : R).
Hypothesis Hh : host K G Ki Gi al.
Let lam := K - 2/3 * G.
Let U1 := penny_U1 lam G Gi al.
Let U3 := penny_U3 lam G Ki Gi al.
Lemma lam_eq : K - 2 * G / 3 = lam. Proof. unfold lam; field. Qed.

Lemma hudson_spec order axis a : (order = 1 \/ order = 2)%Z -> (axis = 3%Z /\ a = 2%nat \/ axis = 1%Z /\ a = 0%nat) ->
  exists C0 C,
    utils_write_iso m (Fin K) (Fin G) = Ret (finmat C0) /\
    EM_hudson m (Fin K) (Fin G) (Fin Ki) (Fin Gi) (Fin al) (Fin crd) order axis = Ret (finmat C) /\
    let c1 i j k l := - (crd / G) * crack_loss C0 U1 U3 (axis_dir a) i j k l in
    forall i j k l, ax4 i j k l ->
    tensor C i j k l = tensor C0 i j k l + c1 i j k l
                       + (if Z.eqb order 2 then hudson_second lam G c1 i j k l else 0).
Proof.
  intros Ho Hax. assert (HG : 0 < G) by apply Hh.
  assert (Hl2 : 0 < lam + 2*G) by (destruct Hh; unfold lam; lra).
  exists (iso K G).
  destruct Hax as [[-> ->]|[-> ->]]; eexists; (split; [apply write_iso_eval|]);
  rewrite (hudson_eval m K G Ki Gi al crd Hh order _ Ho); cbv zeta; rewrite lam_eq; fold U1 U3;
  cbn [Z.eqb Pos.eqb]; (split; [reflexivity|]); intros i j k l A.
  - rewrite (second_ext lam G _ (fun i j k l => - (crd / G) * tensor (vti (lam^2 * U3) ((lam + 2*G)^2 * U3) (lam * (lam + 2*G) * U3) (G^2 * U1) 0) i j k l))
      by (auto; intros; rewrite loss_axis3 by auto; cbv zeta; rewrite lam_eq; reflexivity).
    rewrite second_form by lra. rewrite loss_axis3 by auto. cbv zeta. rewrite lam_eq.
    destruct A as (Hi & Hj & Hk & Hl).
    destruct Ho as [-> | ->]; cbn [Z.eqb Pos.eqb];
    fin3 i; fin3 j; fin3 k; fin3 l; unfold sum3, iso, tensor, vti, ofrows; cbn [vgt nth];
    try (rewrite lam_eq); try (unfold lam; field; unfold lam in Hl2; lra).
  - rewrite (second_ext lam G _ (fun i j k l => - (crd / G) * tensor (hti ((lam + 2*G)^2 * U3) (lam^2 * U3) (lam * (lam + 2*G) * U3) 0 (G^2 * U1)) i j k l))
      by (auto; intros; rewrite loss_axis1 by auto; cbv zeta; rewrite lam_eq; reflexivity).
    rewrite second_form by lra. rewrite loss_axis1 by auto. cbv zeta. rewrite lam_eq.
    destruct A as (Hi & Hj & Hk & Hl).
    destruct Ho as [-> | ->]; cbn [Z.eqb Pos.eqb];
    fin3 i; fin3 j; fin3 k; fin3 l; unfold sum3, iso, tensor, vti, hti, ofrows; cbn [vgt nth];
    try (rewrite lam_eq); try (unfold lam; field; unfold lam in Hl2; lra).
Qed.
End HS.
