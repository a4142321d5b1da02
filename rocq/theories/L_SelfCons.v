(** * L_SelfCons: the self-consistent equations always have a root *)
From Coq Require Import Reals Lra Lia List.
From Verif Require Import Fl RealLemmas Spec Spec7 M_EM L_EM5 L_EM8 L_Shape L_Dem L_Dem2 L_Miranda.
Import ListNotations.
Open Scope R_scope.
Local Notation Forall := List.Forall.
Definition stiff (p : phase) : Prop := passive p /\ 0 < ph_K p /\ 0 < ph_G p.
Lemma common_box (u : phase -> R) L : Forall (fun p => 0 < u p) L -> exists a b, 0 < a /\ a < b /\ Forall (fun p => a <= u p <= b) L.
Proof.
  induction 1 as [|p L Hp _ (a & b & Ha & Hab & IH)]; [exists 1, 2; repeat split; [lra|lra|constructor]|].
  exists (Rmin a (u p)), (Rmax b (u p)). assert (A := Rmin_l a (u p)). assert (B := Rmin_r a (u p)). assert (C := Rmax_l b (u p)). assert (D := Rmax_r b (u p)).
  split; [apply Rmin_glb_lt; auto|]. split; [lra|]. constructor; [lra|]. revert IH. apply List.Forall_impl. intros q Hq. lra.
Qed.
Lemma Lip_sum k0 k1 g0 g1 (u : phase -> R -> R -> R) L : Forall (fun p => Lip k0 k1 g0 g1 (u p)) L -> Lip k0 k1 g0 g1 (fun K G => sumf (fun p => u p K G) L).
Proof.
  induction 1 as [|p L Hp _ IH]; [exact (Lip_const k0 k1 g0 g1 0)|]. exact (Lip_add _ _ _ _ _ _ Hp IH).
Qed.
Lemma sum_sign (u : phase -> R) L : (Forall (fun p => 0 <= u p) L -> 0 <= sumf u L) /\ (Forall (fun p => u p <= 0) L -> sumf u L <= 0).
Proof.
  unfold sumf. split; induction 1 as [|p L Hp _ IH]; cbn; try lra.
Qed.
Lemma sc_root L : Forall stiff L -> exists Ks Gs, 0 < Ks /\ 0 < Gs /\ sumf (fun p => ph_x p * (ph_K p - Ks) * phP Ks Gs p) L = 0 /\ sumf (fun p => ph_x p * (ph_G p - Gs) * phQ Ks Gs p) L = 0.
Proof.
  intros H. destruct (common_box ph_K L) as (k0 & k1 & K0 & K1 & BK). { revert H. apply List.Forall_impl. intros p (_ & A & _). exact A. }
  destruct (common_box ph_G L) as (g0 & g1 & G0 & G1 & BG). { revert H. apply List.Forall_impl. intros p (_ & _ & A). exact A. }
  assert (LPQ : forall p, stiff p -> Lip k0 k1 g0 g1 (fun K G => phP K G p) /\ Lip k0 k1 g0 g1 (fun K G => phQ K G p)).
  { intros p ((X & _ & _ & W) & A & B). apply al_used_in in W. split.
    - destruct (Lip_sphP k0 k1 g0 g1 (ph_K p) (ph_G p) (al_used (ph_al p))) as (M & HM & HL); try lra. exists M. split; [exact HM|]. intros K G K' G' I I'. rewrite (proj1 (ph_sph K G p)), (proj1 (ph_sph K' G' p)). auto.
    - destruct (Lip_sphQ k0 k1 g0 g1 (ph_K p) (ph_G p) (al_used (ph_al p))) as (M & HM & HL); try lra. exists M. split; [exact HM|]. intros K G K' G' I I'. rewrite (proj2 (ph_sph K G p)), (proj2 (ph_sph K' G' p)). auto. }
  assert (PP : forall K G p, 0 < K -> 0 < G -> stiff p -> 0 < phP K G p /\ 0 < phQ K G p).
  { intros K G p HK HG (Hp & _). assert (C := phases_conc K G HK HG [p] (Forall_cons _ Hp (Forall_nil _))). inversion_clear C as [|? ? (_ & C1) _]. exact C1. }
  destruct (miranda k0 k1 g0 g1 (fun K G => sumf (fun p => ph_x p * (ph_K p - K) * phP K G p) L) (fun K G => sumf (fun p => ph_x p * (ph_G p - G) * phQ K G p) L)) as (Ks & Gs & IK & IG & E1 & E2); auto.
  - apply Lip_sum. revert H. apply List.Forall_impl. intros p Hp. destruct (LPQ p Hp) as (A & _). assert (Hk : k0 <= k1) by lra. assert (Hg : g0 <= g1) by lra. lip.
  - apply Lip_sum. revert H. apply List.Forall_impl. intros p Hp. destruct (LPQ p Hp) as (_ & A). assert (Hk : k0 <= k1) by lra. assert (Hg : g0 <= g1) by lra. lip.
  - intros y Hy. apply sum_sign. revert H BK. rewrite !List.Forall_forall. intros H BK p Hp. specialize (H p Hp). specialize (BK p Hp). cbv beta in BK. destruct (PP k0 y p) as (A & _); try lra; auto.
    destruct H as ((X & _) & _). apply Rmult_le_pos; [apply Rmult_le_pos; lra|lra].
  - intros y Hy. apply sum_sign. revert H BK. rewrite !List.Forall_forall. intros H BK p Hp. specialize (H p Hp). specialize (BK p Hp). cbv beta in BK. destruct (PP k1 y p) as (A & _); try lra; auto.
    destruct H as ((X & _) & _). assert (0 <= ph_x p * (k1 - ph_K p) * phP k1 y p) by (apply Rmult_le_pos; [apply Rmult_le_pos; lra|lra]). lra.
  - intros y Hy. apply sum_sign. revert H BG. rewrite !List.Forall_forall. intros H BG p Hp. specialize (H p Hp). specialize (BG p Hp). cbv beta in BG. destruct (PP y g0 p) as (_ & A); try lra; auto.
    destruct H as ((X & _) & _). apply Rmult_le_pos; [apply Rmult_le_pos; lra|lra].
  - intros y Hy. apply sum_sign. revert H BG. rewrite !List.Forall_forall. intros H BG p Hp. specialize (H p Hp). specialize (BG p Hp). cbv beta in BG. destruct (PP y g1 p) as (_ & A); try lra; auto.
    destruct H as ((X & _) & _). assert (0 <= ph_x p * (g1 - ph_G p) * phQ y g1 p) by (apply Rmult_le_pos; [apply Rmult_le_pos; lra|lra]). lra.
  - exists Ks, Gs. repeat split; auto; lra.
Qed.
