(** * L_Ode: a system of two autonomous equations with a Lipschitz right-hand side has a solution (Picard). *)
From Coquelicot Require Import Coquelicot.
From Coq Require Import Reals Lra Lia PSeries_reg Ranalysis5.
From Verif Require Import L_EM8 L_Shape.
Open Scope R_scope.

(** A function whose slope is bounded by c |u|^n. *)
Lemma slope_pow (h h' : R -> R) c n : 0 <= c -> h 0 = 0 -> (forall u, derivable_pt_lim h u (h' u)) -> (forall u, Rabs (h' u) <= c * Rabs u ^ n) ->
  forall s, Rabs (h s) <= c * Rabs s ^ S n / INR (S n).
Proof.
  intros Hc H0 D B.
  assert (N : 0 < INR (S n)) by (apply lt_0_INR; lia).
  assert (P : forall (k k' : R -> R), k 0 = 0 -> (forall u, derivable_pt_lim k u (k' u)) -> (forall u, Rabs (k' u) <= c * Rabs u ^ n) -> forall s, 0 <= s -> k s <= c * s ^ S n / INR (S n)).
  { intros k k' K0 DK BK s Hs.
    assert (X : (fun u => c * u ^ S n / INR (S n) - k u) 0 <= (fun u => c * u ^ S n / INR (S n) - k u) s).
    { apply (nondec (fun u => c * u ^ S n / INR (S n) - k u) (fun u => c * u ^ n - k' u) 0 s Hs). intros t Ht. split.
      - apply (derivable_pt_lim_minus (fun u => c * u ^ S n / INR (S n)) k); [|apply DK].
        replace (c * t ^ n) with (c * / INR (S n) * (INR (S n) * t ^ pred (S n))) by (cbn [pred]; field; lra).
        apply derivable_pt_lim_ext with (fun u => c * / INR (S n) * u ^ S n); [intros; unfold Rdiv; ring|]. apply (derivable_pt_lim_scal (fun u => u ^ S n)). apply derivable_pt_lim_pow.
      - specialize (BK t). rewrite (Rabs_right t) in BK by lra. assert (Y := Rle_abs (k' t)). lra. }
    cbv beta in X. rewrite K0 in X. assert (Z : c * 0 ^ S n / INR (S n) = 0) by (cbn [pow]; unfold Rdiv; ring). rewrite Z in X. lra. }
  assert (Q : forall (k k' : R -> R), k 0 = 0 -> (forall u, derivable_pt_lim k u (k' u)) -> (forall u, Rabs (k' u) <= c * Rabs u ^ n) -> forall s, 0 <= s -> Rabs (k s) <= c * s ^ S n / INR (S n)).
  { intros k k' K0 DK BK s Hs. apply Rabs_le. split; [|eapply P; eauto].
    assert (X := P (fun u => - k u) (fun u => - k' u)). cbv beta in X. rewrite K0 in X. specialize (X ltac:(ring)). 
    specialize (X ltac:(intros u; apply derivable_pt_lim_opp; apply DK) ltac:(intros u; rewrite Rabs_Ropp; apply BK) s Hs). lra. }
  intros s. destruct (Rle_or_lt 0 s) as [Hs|Hs].
  - rewrite (Rabs_right s) by lra. eapply Q; eauto.
  - rewrite (Rabs_left s) by lra. assert (X := Q (fun u => h (- u)) (fun u => - h' (- u))). cbv beta in X. rewrite Ropp_0 in X. specialize (X H0).
    specialize (X). assert (Y : forall u, derivable_pt_lim (fun u => h (- u)) u (- h' (- u))).
    { intros u. replace (- h' (- u)) with (h' (- u) * -1) by ring. apply (derivable_pt_lim_comp (fun u => - u) h u (-1) (h' (- u))); [|apply D].
      apply (derivable_pt_lim_opp (fun u => u) u 1). apply derivable_pt_lim_id. }
    specialize (X Y ltac:(intros u; rewrite Rabs_Ropp; specialize (B (- u)); rewrite Rabs_Ropp in B; exact B) (- s) ltac:(lra)). rewrite Ropp_involutive in X. exact X.
Qed.

Section Picard.
Variables (F1 F2 : R -> R -> R) (L x0 y0 : R).
Hypothesis HL : 0 < L.
Hypothesis HF1 : forall x y x' y', Rabs (F1 x y - F1 x' y') <= L * (Rabs (x - x') + Rabs (y - y')).
Hypothesis HF2 : forall x y x' y', Rabs (F2 x y - F2 x' y') <= L * (Rabs (x - x') + Rabs (y - y')).
Lemma lip_cont (F : R -> R -> R) (x y : R -> R) s : (forall x y x' y', Rabs (F x y - F x' y') <= L * (Rabs (x - x') + Rabs (y - y'))) ->
  continuity_pt x s -> continuity_pt y s -> continuity_pt (fun u => F (x u) (y u)) s.
Proof.
  intros H Cx Cy e He. destruct (Cx (e / (2 * L))) as (a & Ha & A). { apply Rdiv_lt_0_compat; lra. } destruct (Cy (e / (2 * L))) as (b & Hb & B). { apply Rdiv_lt_0_compat; lra. }
  exists (Rmin a b). split; [apply Rmin_Rgt_r; split; auto|]. intros u (Du & Hu). assert (U1 := Rmin_l a b). assert (U2 := Rmin_r a b).
  specialize (A u (conj Du (Rlt_le_trans _ _ _ Hu U1))). specialize (B u (conj Du (Rlt_le_trans _ _ _ Hu U2))). cbn in A, B |- *. unfold R_dist in *. eapply Rle_lt_trans; [apply H|].
  replace e with (L * (e / (2 * L) + e / (2 * L))) by (field; lra). apply Rmult_lt_compat_l; lra.
Qed.
Fixpoint pic (n : nat) : (R -> R) * (R -> R) :=
  match n with
  | O => (fun _ => x0, fun _ => y0)
  | S n => (fun s => x0 + RInt (fun u => F1 (fst (pic n) u) (snd (pic n) u)) 0 s, fun s => y0 + RInt (fun u => F2 (fst (pic n) u) (snd (pic n) u)) 0 s)
  end.
Definition px n := fst (pic n).
Definition py n := snd (pic n).
Lemma int_derive (g : R -> R) c s : (forall u, continuity_pt g u) -> derivable_pt_lim (fun s => c + RInt g 0 s) s (g s).
Proof.
  intros C. apply is_derive_Reals. replace (g s) with (0 + g s) by ring. apply (is_derive_plus (fun _ => c) (fun s => RInt g 0 s)).
  - apply (is_derive_const (c : R_NormedModule) (s : R_AbsRing)).
  - apply is_derive_RInt with 0.
    + apply filter_forall. intros b. apply (RInt_correct g 0 b). apply (ex_RInt_continuous g). intros z _. apply continuity_pt_filterlim. apply C.
    + apply continuity_pt_filterlim. apply C.
Qed.
Lemma pic_cont n s : continuity_pt (px n) s /\ continuity_pt (py n) s.
Proof.
  revert s. induction n; intros s.
  - split; apply continuity_pt_const; intros a b; reflexivity.
  - split; apply derivable_continuous_pt.
    + eexists. apply (int_derive (fun u => F1 (px n u) (py n u))). intros u. apply lip_cont; [exact HF1|apply IHn|apply IHn].
    + eexists. apply (int_derive (fun u => F2 (px n u) (py n u))). intros u. apply lip_cont; [exact HF2|apply IHn|apply IHn].
Qed.
Lemma pic_der n s : derivable_pt_lim (px (S n)) s (F1 (px n s) (py n s)) /\ derivable_pt_lim (py (S n)) s (F2 (px n s) (py n s)).
Proof.
  split; [apply (int_derive (fun u => F1 (px n u) (py n u)))|apply (int_derive (fun u => F2 (px n u) (py n u)))]; intros u; apply lip_cont; auto; apply pic_cont.
Qed.
Lemma pic_0 n : px n 0 = x0 /\ py n 0 = y0.
Proof. destruct n; [split; reflexivity|]. split; unfold px, py; cbn [pic fst snd]; rewrite RInt_point; unfold zero; cbn; ring. Qed.
Let M := Rabs (F1 x0 y0) + Rabs (F2 x0 y0).
Lemma M_pos : 0 <= M.
Proof. unfold M. assert (A := Rabs_pos (F1 x0 y0)). assert (B := Rabs_pos (F2 x0 y0)). lra. Qed.
Lemma pic_step n s : Rabs (px (S n) s - px n s) <= M * (2 * L) ^ n * Rabs s ^ S n / INR (fact (S n)) /\ Rabs (py (S n) s - py n s) <= M * (2 * L) ^ n * Rabs s ^ S n / INR (fact (S n)).
Proof.
  assert (HM := M_pos). revert s. induction n; intros s.
  - assert (E : forall c, c * Rabs s ^ 1 / INR 1 = M * (2 * L) ^ 0 * Rabs s ^ 1 / INR (fact 1) -> True) by auto. clear E.
    assert (Dx : forall u, derivable_pt_lim (fun s => px 1 s - px 0 s) u (F1 x0 y0)).
    { intros u. replace (F1 x0 y0) with (F1 (px 0 u) (py 0 u) - 0) by (cbn; ring). apply derivable_pt_lim_minus; [apply pic_der|apply derivable_pt_lim_const]. }
    assert (Dy : forall u, derivable_pt_lim (fun s => py 1 s - py 0 s) u (F2 x0 y0)).
    { intros u. replace (F2 x0 y0) with (F2 (px 0 u) (py 0 u) - 0) by (cbn; ring). apply derivable_pt_lim_minus; [apply pic_der|apply derivable_pt_lim_const]. }
    destruct (pic_0 1) as (X1 & Y1). destruct (pic_0 0) as (X0 & Y0).
    replace (M * (2 * L) ^ 0 * Rabs s ^ 1 / INR (fact 1)) with (M * Rabs s ^ 1 / INR 1) by (cbn; field).
    split.
    + apply (slope_pow (fun s => px 1 s - px 0 s) (fun _ => F1 x0 y0) M 0); auto; [rewrite X1, X0; ring|]. intros u. rewrite pow_O. unfold M. assert (B := Rabs_pos (F2 x0 y0)). lra.
    + apply (slope_pow (fun s => py 1 s - py 0 s) (fun _ => F2 x0 y0) M 0); auto; [rewrite Y1, Y0; ring|]. intros u. rewrite pow_O. unfold M. assert (B := Rabs_pos (F1 x0 y0)). lra.
  - set (c := M * (2 * L) ^ S n / INR (fact (S n))).
    assert (Fp := INR_fact_lt_0 (S n)). assert (Hc : 0 <= c). { unfold c, Rdiv. apply Rmult_le_pos; [apply Rmult_le_pos; [auto|apply pow_le; lra]|left; apply Rinv_0_lt_compat; lra]. }
    replace (M * (2 * L) ^ S n * Rabs s ^ S (S n) / INR (fact (S (S n)))) with (c * Rabs s ^ S (S n) / INR (S (S n))).
    2: { unfold c. rewrite (fact_simpl (S n)), mult_INR. field. split; [lra|apply not_0_INR; lia]. }
    destruct (pic_0 (S (S n))) as (X1 & Y1). destruct (pic_0 (S n)) as (X0 & Y0).
    assert (B : forall (F : R -> R -> R), (forall x y x' y', Rabs (F x y - F x' y') <= L * (Rabs (x - x') + Rabs (y - y'))) -> forall u, Rabs (F (px (S n) u) (py (S n) u) - F (px n u) (py n u)) <= c * Rabs u ^ S n).
    { intros F HF u. eapply Rle_trans; [apply HF|]. destruct (IHn u) as (A1 & A2). replace (c * Rabs u ^ S n) with (L * (2 * (M * (2 * L) ^ n * Rabs u ^ S n / INR (fact (S n))))).
      - apply Rmult_le_compat_l; lra.
      - unfold c. change ((2 * L) ^ S n) with (2 * L * (2 * L) ^ n). field. lra. }
    split.
    + apply (slope_pow (fun s => px (S (S n)) s - px (S n) s) (fun u => F1 (px (S n) u) (py (S n) u) - F1 (px n u) (py n u)) c (S n)); auto; [rewrite X1, X0; ring|]. intros u. apply derivable_pt_lim_minus; apply pic_der.
    + apply (slope_pow (fun s => py (S (S n)) s - py (S n) s) (fun u => F2 (px (S n) u) (py (S n) u) - F2 (px n u) (py n u)) c (S n)); auto; [rewrite Y1, Y0; ring|]. intros u. apply derivable_pt_lim_minus; apply pic_der.
Qed.
(** The steps form a normally convergent series on every ball. *)
Lemma exp_tail z : { l | Un_cv (fun n => sum_f_R0 (fun k => z ^ S k / INR (fact (S k))) n) l }.
Proof.
  exists (exp z - 1). intros e He. unfold exp. destruct (exist_exp z) as (l & Hl). cbn [proj1_sig]. destruct (Hl e He) as (N & HN). exists N. intros n Hn. specialize (HN (S n) ltac:(lia)).
  rewrite (decomp_sum (fun i => / INR (fact i) * z ^ i)) in HN by lia. cbn [pred] in HN.
  replace (sum_f_R0 (fun k => z ^ S k / INR (fact (S k))) n) with (sum_f_R0 (fun i => / INR (fact (S i)) * z ^ S i) n) by (apply sum_eq; intros i _; unfold Rdiv; ring).
  replace (/ INR (fact 0) * z ^ 0) with 1 in HN by (cbn; field). unfold R_dist in *. 
  replace (sum_f_R0 (fun i => / INR (fact (S i)) * z ^ S i) n - (l - 1)) with (1 + sum_f_R0 (fun i => / INR (fact (S i)) * z ^ S i) n - l) by ring. exact HN.
Qed.
Lemma cvn_steps (f : nat -> R -> R) : (forall n s, Rabs (f n s) <= M * (2 * L) ^ n * Rabs s ^ S n / INR (fact (S n))) -> CVN_R f.
Proof.
  intros H r. assert (HM := M_pos). set (An := fun n => M * (2 * L) ^ n * r ^ S n / INR (fact (S n))). exists An.
  destruct (exp_tail (2 * L * r)) as (l & Hl). exists (M / (2 * L) * l). assert (Hr := cond_pos r).
  assert (PA : forall n, 0 <= An n). { intros n. unfold An, Rdiv. apply Rmult_le_pos; [apply Rmult_le_pos; [apply Rmult_le_pos; [auto|apply pow_le; lra]|apply pow_le; lra]|left; apply Rinv_0_lt_compat; apply INR_fact_lt_0]. }
  split.
  - assert (X : Un_cv (fun n => M / (2 * L) * sum_f_R0 (fun k => (2 * L * r) ^ S k / INR (fact (S k))) n) (M / (2 * L) * l)).
    { apply (CV_mult (fun _ => M / (2 * L))); [|exact Hl]. intros e He. exists O. intros. unfold R_dist. replace (M / (2 * L) - M / (2 * L)) with 0 by ring. rewrite Rabs_R0. exact He. }
    intros e He. destruct (X e He) as (N & HN). exists N. intros n Hn. specialize (HN n Hn).
    replace (sum_f_R0 (fun k => Rabs (An k)) n) with (M / (2 * L) * sum_f_R0 (fun k => (2 * L * r) ^ S k / INR (fact (S k))) n); [exact HN|].
    rewrite scal_sum. apply sum_eq. intros i _. rewrite Rabs_right by (apply Rle_ge, PA). unfold An. rewrite Rpow_mult_distr. change ((2 * L) ^ S i) with (2 * L * (2 * L) ^ i). field. split; [apply INR_fact_neq_0|lra].
  - intros n y Hy. unfold Boule in Hy. rewrite Rminus_0_r in Hy. eapply Rle_trans; [apply H|]. unfold An, Rdiv. apply Rmult_le_compat_r; [left; apply Rinv_0_lt_compat; apply INR_fact_lt_0|].
    apply Rmult_le_compat_l; [apply Rmult_le_pos; [auto|apply pow_le; lra]|]. apply pow_incr. split; [apply Rabs_pos|lra].
Qed.
Let fx (n : nat) (s : R) := px (S n) s - px n s.
Let fy (n : nat) (s : R) := py (S n) s - py n s.
Lemma cx : CVN_R fx.
Proof. apply cvn_steps. intros n s. apply pic_step. Qed.
Lemma cy : CVN_R fy.
Proof. apply cvn_steps. intros n s. apply pic_step. Qed.
Definition solx (s : R) : R := x0 + SFL fx (CVN_R_CVS fx cx) s.
Definition soly (s : R) : R := y0 + SFL fy (CVN_R_CVS fy cy) s.
Lemma SPx n s : x0 + SP fx n s = px (S n) s.
Proof. unfold SP. induction n; cbn [sum_f_R0]; [unfold fx; cbn [px pic fst]; ring|]. unfold fx at 2. lra. Qed.
Lemma SPy n s : y0 + SP fy n s = py (S n) s.
Proof. unfold SP. induction n; cbn [sum_f_R0]; [unfold fy; cbn [py pic snd]; ring|]. unfold fy at 2. lra. Qed.
Lemma unif r : CVU (fun n => px (S n)) solx 0 r /\ CVU (fun n => py (S n)) soly 0 r.
Proof.
  split; intros e He.
  - destruct (CVN_CVU fx (CVN_R_CVS fx cx) r (cx r) e He) as (N & HN). exists N. intros n y Hn Hy. specialize (HN n y Hn Hy). rewrite <- SPx. unfold solx. replace (x0 + SFL fx (CVN_R_CVS fx cx) y - (x0 + SP fx n y)) with (SFL fx (CVN_R_CVS fx cx) y - SP fx n y) by ring. exact HN.
  - destruct (CVN_CVU fy (CVN_R_CVS fy cy) r (cy r) e He) as (N & HN). exists N. intros n y Hn Hy. specialize (HN n y Hn Hy). rewrite <- SPy. unfold soly. replace (y0 + SFL fy (CVN_R_CVS fy cy) y - (y0 + SP fy n y)) with (SFL fy (CVN_R_CVS fy cy) y - SP fy n y) by ring. exact HN.
Qed.
Lemma sol_cont s : continuity_pt solx s /\ continuity_pt soly s.
Proof.
  assert (A : continuity (SFL fx (CVN_R_CVS fx cx))). { apply SFL_continuity; [exact cx|]. intros n s'. apply continuity_pt_minus; apply pic_cont. }
  assert (B : continuity (SFL fy (CVN_R_CVS fy cy))). { apply SFL_continuity; [exact cy|]. intros n s'. apply continuity_pt_minus; apply pic_cont. }
  split.
  - apply (continuity_pt_plus (fun _ => x0) (SFL fx (CVN_R_CVS fx cx))); [apply continuity_pt_const; intros a b; reflexivity|apply A].
  - apply (continuity_pt_plus (fun _ => y0) (SFL fy (CVN_R_CVS fy cy))); [apply continuity_pt_const; intros a b; reflexivity|apply B].
Qed.
Lemma cvu_F (F : R -> R -> R) r : (forall x y x' y', Rabs (F x y - F x' y') <= L * (Rabs (x - x') + Rabs (y - y'))) ->
  CVU (fun n s => F (px (S n) s) (py (S n) s)) (fun s => F (solx s) (soly s)) 0 r.
Proof.
  intros HF e He. destruct (unif r) as (A & B). assert (He' : 0 < e / (2 * L)) by (apply Rdiv_lt_0_compat; lra). destruct (A _ He') as (N & HN). destruct (B _ He') as (N' & HN').
  exists (max N N'). intros n y Hn Hy. specialize (HN n y ltac:(lia) Hy). specialize (HN' n y ltac:(lia) Hy). eapply Rle_lt_trans; [apply HF|].
  replace e with (L * (e / (2 * L) + e / (2 * L))) by (field; lra). apply Rmult_lt_compat_l; lra.
Qed.
Lemma sol_der s : derivable_pt_lim solx s (F1 (solx s) (soly s)) /\ derivable_pt_lim soly s (F2 (solx s) (soly s)).
Proof.
  assert (Hr : 0 < Rabs s + 1) by (assert (A := Rabs_pos s); lra). set (r := mkposreal _ Hr).
  assert (I : Boule 0 r s) by (unfold Boule; rewrite Rminus_0_r; cbn; lra).
  assert (P : forall (f : nat -> R -> R) g y, CVU f g 0 r -> Boule 0 r y -> Un_cv (fun n => f n y) (g y)).
  { intros f g y C Hy e He. destruct (C e He) as (N & HN). exists N. intros n Hn. unfold R_dist. rewrite Rabs_minus_sym. apply HN; auto. }
  destruct (unif r) as (A & B). split.
  - apply (Ranalysis5.derivable_pt_lim_CVU (fun n => px (S (S n))) (fun n s => F1 (px (S n) s) (py (S n) s)) solx (fun s => F1 (solx s) (soly s)) s 0 r I).
    + intros y n _. apply pic_der.
    + intros y Hy. intros e He. destruct (P _ _ y A Hy e He) as (N & HN). exists N. intros n Hn. apply HN. lia.
    + apply cvu_F. exact HF1.
    + intros y _. apply lip_cont; auto; apply sol_cont.
  - apply (Ranalysis5.derivable_pt_lim_CVU (fun n => py (S (S n))) (fun n s => F2 (px (S n) s) (py (S n) s)) soly (fun s => F2 (solx s) (soly s)) s 0 r I).
    + intros y n _. apply pic_der.
    + intros y Hy. intros e He. destruct (P _ _ y B Hy e He) as (N & HN). exists N. intros n Hn. apply HN. lia.
    + apply cvu_F. exact HF2.
    + intros y _. apply lip_cont; auto; apply sol_cont.
Qed.
Lemma sol_0 : solx 0 = x0 /\ soly 0 = y0.
Proof.
  assert (Hr : 0 < 1) by lra. set (r := mkposreal _ Hr). destruct (unif r) as (A & B).
  assert (I : Boule 0 r 0) by (unfold Boule; rewrite Rminus_0_r, Rabs_R0; cbn; lra).
  split; apply cond_eq; intros e He.
  - destruct (A e He) as (N & HN). specialize (HN N 0 (le_n N) I). rewrite (proj1 (pic_0 (S N))) in HN. exact HN.
  - destruct (B e He) as (N & HN). specialize (HN N 0 (le_n N) I). rewrite (proj2 (pic_0 (S N))) in HN. exact HN.
Qed.
End Picard.

Theorem picard (F1 F2 : R -> R -> R) (L x0 y0 : R) : 0 < L ->
  (forall x y x' y', Rabs (F1 x y - F1 x' y') <= L * (Rabs (x - x') + Rabs (y - y'))) ->
  (forall x y x' y', Rabs (F2 x y - F2 x' y') <= L * (Rabs (x - x') + Rabs (y - y'))) ->
  exists X Y : R -> R, X 0 = x0 /\ Y 0 = y0 /\ forall s, derivable_pt_lim X s (F1 (X s) (Y s)) /\ derivable_pt_lim Y s (F2 (X s) (Y s)).
Proof.
  intros HL H1 H2. exists (solx F1 F2 L x0 y0 HL H1 H2), (soly F1 F2 L x0 y0 HL H1 H2).
  destruct (sol_0 F1 F2 L x0 y0 HL H1 H2) as (A & B). split; [exact A|]. split; [exact B|]. intros s. apply sol_der.
Qed.
