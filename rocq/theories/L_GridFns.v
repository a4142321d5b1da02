(** * L_GridFns: the programs of M_Grid.v, run on numbers, are the models of their functions. *)
From Verif Require Import Fl M_Utils M_EM M_Anis M_AVO M_Array M_ArrayFns Spec16 L_ArrayFns M_Grid Spec17.
Open Scope fl_scope.

Lemma Aki_Richards_arr m theta vp1 vp2 vs1 vs2 den1 den2 :
  out4 (AVO_Aki_Richards m theta vp1 vp2 vs1 vs2 den1 den2) = run m arr_AVO_Aki_Richards [theta; vp1; vp2; vs1; vs2; den1; den2].
Proof. unfold out4, arr_AVO_Aki_Richards, AVO_Aki_Richards. fn. Qed.
Lemma Swiss_cheese_arr m Ks Gs phi : out2 (EM_Swiss_cheese m Ks Gs phi) = run m arr_EM_Swiss_cheese [Ks; Gs; phi].
Proof. unfold out2, arr_EM_Swiss_cheese, EM_Swiss_cheese. fn. Qed.
Lemma EI_sample_arr m ipn isn Vp0 Vs0 Vp Vs rho theta SP :
  out_EI (AVO_EI_sample m ipn isn Vp0 Vs0 Vp Vs rho theta SP) = run m arr_AVO_EI_sample [ipn; isn; Vp0; Vs0; Vp; Vs; rho; theta; SP].
Proof. unfold out_EI, arr_AVO_EI_sample, AVO_EI_sample. fn. Qed.
Lemma HTI_elem_arr m D1 D2 C1 C2 theta azimuth :
  out1 (AVO_HTI_elem D1 D2 C1 C2 theta azimuth)
  = run m arr_AVO_HTI_elem [D1; D2; mget C1 0 0; mget C1 0 2; mget C1 2 2; mget C1 3 3; mget C1 4 4; mget C1 5 5;
                            mget C2 0 0; mget C2 0 2; mget C2 2 2; mget C2 3 3; mget C2 4 4; mget C2 5 5; theta; azimuth].
Proof. unfold out1, arr_AVO_HTI_elem, AVO_HTI_elem. fn. Qed.
