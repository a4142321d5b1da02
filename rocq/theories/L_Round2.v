(** * L_Round2: a floating-point run always exists; without rounding its numbers are the exact ones. *)
From Verif Require Import Fl M_Array M_Round Spec18 L_Round.
Open Scope R_scope.

Lemma near0 x y : near 0 x y -> y = x.
Proof. unfold near. rewrite Rmult_0_l. intros H. apply rabs_le in H. lra. Qed.
Lemma sem1_def o x : def1 o x -> sem1 o (Fin x) = Fin (rsem1 o x).
Proof.
  intros H; destruct o; simpl in *; auto.
  - destruct Rle_dec; auto; lra.
  - destruct Rlt_dec; auto; lra.
  - destruct Req_EM_T; auto; contradiction.
  - destruct Rle_dec; [destruct Rle_dec; auto|]; lra.
  - destruct Rle_dec; [destruct Rle_dec; auto|]; lra.
Qed.
Lemma sem2_def m o x y : def2 o x y -> sem2 m o (Fin x) (Fin y) = Fin (rsem2 o x y).
Proof.
  intros H; destruct o; simpl in *; auto; try (destruct Req_EM_T; auto; contradiction); destruct Rlt_dec; auto; lra.
Qed.
Lemma ev_sound m e : forall xs y, closed_expr (length xs) e -> fev 0 xs e (Some y) -> ev m (map Fin xs) e = Fin y.
Proof.
  induction e as [n|r|o e IH|o e1 IH1 e2 IH2]; intros xs y H F; simpl in *.
  - injection F as ->. rewrite (nth_indep _ Und (Fin 0)) by (rewrite map_length; auto). apply map_nth.
  - destruct F as (y' & [= <-] & L & _). apply near0 in L. congruence.
  - destruct F as ([x|] & F & D); [|discriminate].
    destruct D as [(D & y' & [= <-] & R)|(_ & [=])]. rewrite (IH _ _ H F), sem1_def by auto. f_equal.
    destruct o; simpl in R |- *; try (apply near0 in R; rewrite R; reflexivity). congruence.
  - destruct H as (H1 & H2). destruct F as ([x1|] & [x2|] & F1 & F2 & D); try discriminate.
    destruct D as [(D & y' & [= <-] & R)|(_ & [=])]. rewrite (IH1 _ _ H1 F1), (IH2 _ _ H2 F2), sem2_def by auto. f_equal.
    destruct o; simpl in R |- *; try (apply near0 in R; rewrite R; reflexivity). congruence.
Qed.
Lemma rets_sound m es : forall xs ys, (forall e, In e es -> closed_expr (length xs) e) -> fevs 0 xs es (Some ys) ->
  rets (map (ev m (map Fin xs)) es) = Ret (map Fin ys).
Proof.
  induction es as [|e es IH]; intros xs ys H F; simpl in *.
  - injection F as ->; reflexivity.
  - destruct F as ([y|] & [z|] & F & G & E); try discriminate. injection E as ->.
    rewrite (ev_sound m e xs y), (IH xs z) by auto. reflexivity.
Qed.
Lemma run_sound m p : forall xs ys, closed (length xs) p -> fprog 0 p xs (Some ys) -> run m p (map Fin xs) = Ret (map Fin ys).
Proof.
  induction p as [es|e p IH|c e1 e2 p IHp q IHq]; intros xs ys H F; simpl in *.
  - apply rets_sound; auto.
  - destruct H as (H1 & H2). destruct F as ([x|] & F & G); [|discriminate]. rewrite (ev_sound m e xs x) by auto. simpl.
    rewrite <- (IH (xs ++ [x])); [rewrite map_app; reflexivity| |auto]. rewrite app_length, Nat.add_1_r; auto.
  - destruct H as (H1 & H2 & Hp & Hq). destruct F as ([x1|] & [x2|] & F1 & F2 & G); try discriminate.
    rewrite (ev_sound m e1 xs x1), (ev_sound m e2 xs x2) by auto.
    assert (E : semc c (Fin x1) (Fin x2) = Some (rcmpb c x1 x2)) by (destruct c; reflexivity).
    rewrite E. destruct rcmpb; auto.
Qed.

Lemma def1_dec o x : def1 o x \/ ~ def1 o x.
Proof.
  destruct o; simpl; auto; try (destruct (Req_EM_T (cos x) 0); auto; fail); lra.
Qed.
Lemma def2_dec o x y : def2 o x y \/ ~ def2 o x y.
Proof. destruct o; simpl; auto; try (destruct (Req_EM_T y 0); auto; fail); lra. Qed.
Lemma fev_total u e : 0 <= u -> forall xs, exists y, fev u xs e y.
Proof.
  intros Hu. induction e as [n|r|o e IH|o e1 IH1 e2 IH2]; intros xs; simpl.
  - eauto.
  - exists (Some r), r. repeat split; auto. apply near_refl; auto.
  - destruct (IH xs) as ([x|] & F); [|exists None, None; auto].
    destruct (def1_dec o x) as [D|D]; [|exists None, (Some x); auto].
    exists (Some (rsem1 o x)), (Some x). split; auto. left. split; auto. eexists; split; eauto. apply round1_refl; auto.
  - destruct (IH1 xs) as ([x1|] & F1), (IH2 xs) as ([x2|] & F2);
      [|exists None, (Some x1), None; auto|exists None, None, (Some x2); auto|exists None, None, None; auto].
    destruct (def2_dec o x1 x2) as [D|D]; [|exists None, (Some x1), (Some x2); auto].
    exists (Some (rsem2 o x1 x2)), (Some x1), (Some x2). repeat split; auto. left. split; auto. eexists; split; eauto. apply round2_refl; auto.
Qed.
Lemma fevs_total u es : 0 <= u -> forall xs, exists ys, fevs u xs es ys.
Proof.
  intros Hu; induction es as [|e es IH]; intros xs; simpl; eauto.
  destruct (fev_total u e Hu xs) as (y & F), (IH xs) as (z & G). eauto 6.
Qed.
Lemma fprog_total u p : 0 <= u -> forall xs, exists ys, fprog u p xs ys.
Proof.
  intros Hu; induction p as [es|e p IH|c e1 e2 p IHp q IHq]; intros xs; simpl.
  - apply fevs_total; auto.
  - destruct (fev_total u e Hu xs) as ([x|] & F); [destruct (IH (xs ++ [x])) as (ys & G); exists ys, (Some x)|exists None, None]; auto.
  - destruct (fev_total u e1 Hu xs) as ([x1|] & F1), (fev_total u e2 Hu xs) as ([x2|] & F2);
      [|exists None, (Some x1), None; auto|exists None, None, (Some x2); auto|exists None, None, None; auto].
    destruct (IHp xs) as (ys & G), (IHq xs) as (zs & G').
    destruct (rcmpb c x1 x2) eqn:E; [exists ys|exists zs]; exists (Some x1), (Some x2); rewrite E; auto.
Qed.
(** A larger rounding unit allows more results. *)
Lemma near_mono u v x y : u <= v -> near u x y -> near v x y.
Proof. unfold near; intros; pose proof (Rabs_pos x); nra. Qed.
Lemma fev_mono u v e : u <= v -> forall xs y, fev u xs e y -> fev v xs e y.
Proof.
  intros Hu. induction e as [n|r|o e IH|o e1 IH1 e2 IH2]; intros xs y F; simpl in *; auto.
  - destruct F as (y' & -> & N & L). exists y'. repeat split; auto. eapply near_mono; eauto.
  - destruct F as (x & F & D). exists x. split; auto. destruct x as [x|]; auto.
    destruct D as [(D & y' & -> & R)|D]; [left|right; auto]. split; auto. exists y'. split; auto.
    destruct o; simpl in *; auto; eapply near_mono; eauto.
  - destruct F as (x1 & x2 & F1 & F2 & D). exists x1, x2. repeat split; auto. destruct x1 as [x1|], x2 as [x2|]; auto.
    destruct D as [(D & y' & -> & R)|D]; [left|right; auto]. split; auto. exists y'. split; auto.
    destruct o; simpl in *; auto; eapply near_mono; eauto.
Qed.
Lemma fevs_mono u v es : u <= v -> forall xs ys, fevs u xs es ys -> fevs v xs es ys.
Proof.
  intros Hu. induction es as [|e es IH]; intros xs ys F; simpl in *; auto.
  destruct F as (y & z & F & G & E). exists y, z. repeat split; auto. eapply fev_mono; eauto.
Qed.
Lemma fprog_mono u v p : u <= v -> forall xs ys, fprog u p xs ys -> fprog v p xs ys.
Proof.
  intros Hu. induction p as [es|e p IH|c e1 e2 p IHp q IHq]; intros xs ys F; simpl in *.
  - eapply fevs_mono; eauto.
  - destruct F as (x & F & G). exists x. split; [eapply fev_mono; eauto|]. destruct x; auto.
  - destruct F as (x1 & x2 & F1 & F2 & G). exists x1, x2. split; [eapply fev_mono; eauto|]. split; [eapply fev_mono; eauto|].
    destruct x1, x2; auto. destruct rcmpb; auto.
Qed.
