(** * L_Store: running code on the store. *)
From Verif Require Import Fl M_EM M_Array M_Store Spec23.
Open Scope fl_scope.

(** ** Stores *)
Lemma update_length {A} (l : list A) : forall n x, length (update l n x) = length l.
Proof. induction l; intros [|n] x; simpl; auto. Qed.
Lemma update_other {A} (l : list A) : forall n k x d, k <> n -> nth k (update l n x) d = nth k l d.
Proof. induction l; intros [|n] [|k] x d H; simpl; auto; try lia. Qed.
Lemma update_same {A} (l : list A) : forall n x d, (n < length l)%nat -> nth n (update l n x) d = x.
Proof. induction l; intros [|n] x d H; simpl in *; auto; try lia. apply IHl. lia. Qed.
Lemma update_beyond {A} (l : list A) : forall n x, (length l <= n)%nat -> update l n x = l.
Proof. induction l; intros [|n] x H; simpl in *; auto; try lia. f_equal. apply IHl. lia. Qed.

Lemma same_refl h : same_arrays h h.
Proof. split; auto. Qed.
Lemma same_trans a b c : same_arrays a b -> same_arrays b c -> same_arrays a c.
Proof. intros [L1 E1] [L2 E2]. split; [lia|]. intros l H. rewrite E2, E1 by lia. auto. Qed.
Lemma same_app h t : same_arrays h (h ++ t).
Proof. split; [rewrite app_length; lia|]. intros l H. apply app_nth1. auto. Qed.
Lemma in_store_same h h' env : same_arrays h h' -> in_store h env -> in_store h' env.
Proof. intros [L _] H l Hl. specialize (H l Hl). lia. Qed.
Lemma in_store_app h env vs : in_store h env -> in_store h vs -> in_store h (env ++ vs).
Proof. intros H1 H2 l Hl. apply in_app_or in Hl as [Hl|Hl]; auto. Qed.
Lemma in_store_nth h env n l : in_store h env -> nth n env (RNum Und) = RArr l -> (l < length h)%nat.
Proof.
  intros H E. destruct (Nat.lt_ge_cases n (length env)) as [L|L].
  - apply H. rewrite <- E. apply nth_In. auto.
  - rewrite nth_overflow in E by auto. discriminate.
Qed.
Lemma look_same h h' v : same_arrays h h' -> (forall l, v = RArr l -> (l < length h)%nat) -> look h' v = look h v.
Proof. intros [_ E] H. destruct v as [x|l]; simpl; auto. rewrite E; auto. Qed.
Lemma looks_same h h' env : same_arrays h h' -> in_store h env -> map (look h') env = map (look h) env.
Proof. intros S H. apply map_ext_in. intros v Hv. apply look_same; auto. intros l ->. auto. Qed.
Lemma look_nth h env n : look h (nth n env (RNum Und)) = nth n (map (look h) env) (VS Und).
Proof. rewrite <- (map_nth (look h)). auto. Qed.
Lemma make_same h o : same_arrays h (fst (make h o)).
Proof. destruct o as [[x|l]|e|]; simpl; try apply same_refl. apply same_app. Qed.
Lemma look_make h o : match make h o with
  | (h', Ret v) => (forall l, v = RArr l -> (length h <= l < length h')%nat) /\ Ret (look h' v) = o
  | (_, Raise e) => o = Raise e | (_, Unknown) => o = Unknown end.
Proof.
  destruct o as [[x|l]|e|]; simpl; auto.
  - split; auto. discriminate.
  - split; [intros k [= <-]; rewrite app_length; simpl; lia|]. rewrite app_nth2, Nat.sub_diag by lia. auto.
Qed.
Lemma next_same {A B} h (r : after A) (k : store -> A -> after B) :
  same_arrays h (fst r) -> (forall h' a, same_arrays h h' -> r = (h', Ret a) -> same_arrays h (fst (k h' a))) ->
  same_arrays h (fst (next r k)).
Proof. destruct r as [h' [a|e|]]; simpl; auto. Qed.

(** ** Expressions: the store grows, the value is that of [ev_arr]. *)
Lemma cev_same m h env e : same_arrays h (fst (cev m h env e)).
Proof.
  revert h. induction e as [n|r|o e IH|o e1 IH1 e2 IH2]; intros h; cbn [cev]; try apply same_refl.
  - apply next_same; auto. intros h' a S _. eapply same_trans; [eassumption|]. apply make_same.
  - apply next_same; auto. intros h' a S _. eapply same_trans; [eassumption|].
    apply next_same; auto. intros h2 b S2 _. eapply same_trans; [eassumption|]. apply make_same.
Qed.
Definition agree {A B} (h0 : store) (r : after A) (o : outcome B) (P : store -> A -> B -> Prop) : Prop :=
  match r, o with
  | (h, Ret a), Ret b => P h a b
  | (_, Raise e), Raise e' => e = e'
  | (_, Unknown), Unknown => True
  | _, _ => False
  end.
Definition holds (h : store) (v : slot) (x : val) : Prop := in_store h [v] /\ look h v = x.
Definition hold (h : store) (vs : names) (xs : list val) : Prop := in_store h vs /\ map (look h) vs = xs.
Lemma holds_same h h' v x : same_arrays h h' -> holds h v x -> holds h' v x.
Proof.
  intros S [I E]. split; [eapply in_store_same; eauto|]. rewrite (look_same h h'); auto. intros l ->. apply I. left. auto.
Qed.
Lemma hold_same h h' v x : same_arrays h h' -> hold h v x -> hold h' v x.
Proof. intros S [I E]. split; [eapply in_store_same; eauto|]. rewrite (looks_same h h'); auto. Qed.
Lemma holds_make h0 h o : agree h0 (make h o) o holds.
Proof.
  pose proof (look_make h o) as L. unfold agree. destruct (make h o) as [h' [v|e|]].
  - destruct L as [L <-]. split; auto. intros l [->|[]]. specialize (L l eq_refl). lia.
  - rewrite L. auto.
  - rewrite L. auto.
Qed.
Lemma cev_val m e : forall h env, in_store h env -> agree h (cev m h env e) (ev_arr m (map (look h) env) e) holds.
Proof.
  induction e as [n|r|o e IH|o e1 IH1 e2 IH2]; intros h env I; cbn [cev ev_arr].
  - simpl. split; [|apply look_nth]. intros l [E|[]]. eapply in_store_nth; eauto.
  - simpl. split; auto. intros l [E|[]]. discriminate.
  - specialize (IH h env I). destruct (cev m h env e) as [h1 [v|x|]], (ev_arr m (map (look h) env) e) as [a|x'|];
      simpl in IH |- *; auto; try contradiction.
    destruct IH as [_ <-]. exact (holds_make h h1 _).
  - specialize (IH1 h env I). pose proof (cev_same m h env e1) as S1.
    destruct (cev m h env e1) as [h1 [v|x|]], (ev_arr m (map (look h) env) e1) as [a|x'|]; simpl in IH1 |- *; auto; try contradiction.
    assert (I1 : in_store h1 env) by (eapply in_store_same; eauto).
    specialize (IH2 h1 env I1). pose proof (cev_same m h1 env e2) as S2. rewrite (looks_same h h1) in IH2 by auto.
    destruct (cev m h1 env e2) as [h2 [w|x|]], (ev_arr m (map (look h) env) e2) as [b|x'|]; simpl in IH2 |- *; auto; try contradiction.
    apply (holds_same _ h2) in IH1; auto. destruct IH1 as [_ <-], IH2 as [_ <-]. exact (holds_make h h2 _).
Qed.
Lemma cevs_same m es : forall h env, same_arrays h (fst (cevs m h env es)).
Proof.
  induction es as [|e es IH]; intros h env; cbn [cevs]; [apply same_refl|].
  apply next_same; [apply cev_same|]. intros h1 v S _. eapply same_trans; [eassumption|].
  apply next_same; auto.
Qed.
Lemma cevs_val m es : forall h env, in_store h env -> agree h (cevs m h env es) (ev_arrs m (map (look h) env) es) hold.
Proof.
  induction es as [|e es IH]; intros h env I; cbn [cevs ev_arrs].
  - simpl. split; auto. intros l [].
  - pose proof (cev_val m e h env I) as H. pose proof (cev_same m h env e) as S.
    destruct (cev m h env e) as [h1 [v|x|]], (ev_arr m (map (look h) env) e) as [a|x'|]; simpl in H |- *; auto; try contradiction.
    assert (I1 : in_store h1 env) by (eapply in_store_same; eauto).
    specialize (IH h1 env I1). pose proof (cevs_same m es h1 env) as S1. rewrite (looks_same h h1) in IH by auto.
    destruct (cevs m h1 env es) as [h2 [vs|x|]], (ev_arrs m (map (look h) env) es) as [b|x'|]; simpl in IH |- *; auto; try contradiction.
    apply (holds_same _ h2) in H; auto. destruct H as [J <-], IH as [J2 <-]. split; auto.
    intros l [->|Hl]; auto. apply J. left. auto.
Qed.

(** ** The functions of M_ArrayFns.v *)
Lemma lines_same m p : forall h env, same_arrays h (fst (crun m (lines p) h env)).
Proof.
  induction p as [es|e p IH|c e1 e2 p IHp q IHq]; intros h env; cbn [lines crun].
  - apply cevs_same.
  - apply next_same; [apply cev_same|]. intros h1 v S _. eapply same_trans; eauto.
  - apply next_same; [apply cev_same|]. intros h1 v S _. eapply same_trans; [eassumption|].
    apply next_same; [apply cev_same|]. intros h2 w S2 _. eapply same_trans; [eassumption|].
    destruct truth as [[|]|x|]; auto; apply same_refl.
Qed.
Lemma lines_val m p : forall h env, in_store h env -> agree h (crun m (lines p) h env) (run_arr m p (map (look h) env)) hold.
Proof.
  induction p as [es|e p IH|c e1 e2 p IHp q IHq]; intros h env I; cbn [lines crun run_arr].
  - apply cevs_val. auto.
  - pose proof (cev_val m e h env I) as H. pose proof (cev_same m h env e) as S.
    destruct (cev m h env e) as [h1 [v|x|]], (ev_arr m (map (look h) env) e) as [a|x'|]; simpl in H |- *; auto; try contradiction.
    assert (I1 : in_store h1 (env ++ [v])).
    { apply in_store_app; [eapply in_store_same; eauto|apply H]. }
    specialize (IH h1 _ I1). rewrite map_app, (looks_same h h1) in IH by auto. destruct H as [_ H]. simpl in IH. rewrite H in IH.
    exact IH.
  - pose proof (cev_val m e1 h env I) as H. pose proof (cev_same m h env e1) as S.
    destruct (cev m h env e1) as [h1 [v|x|]], (ev_arr m (map (look h) env) e1) as [a|x'|]; simpl in H |- *; auto; try contradiction.
    assert (I1 : in_store h1 env) by (eapply in_store_same; eauto).
    pose proof (cev_val m e2 h1 env I1) as H2. pose proof (cev_same m h1 env e2) as S2. rewrite (looks_same h h1) in H2 by auto.
    destruct (cev m h1 env e2) as [h2 [w|x|]], (ev_arr m (map (look h) env) e2) as [b|x'|]; simpl in H2 |- *; auto; try contradiction.
    apply (holds_same _ h2) in H; auto. destruct H as [_ <-], H2 as [_ <-].
    assert (I2 : in_store h2 env) by (eapply in_store_same; eauto).
    assert (E2 : map (look h2) env = map (look h) env).
    { rewrite (looks_same h1 h2) by auto. apply looks_same; auto. }
    destruct truth as [[|]|x|]; simpl; auto.
    + specialize (IHp h2 env I2). rewrite E2 in IHp. exact IHp.
    + specialize (IHq h2 env I2). rewrite E2 in IHq. exact IHq.
Qed.

(** ** Which arguments a piece of code may change, and which results may be arguments. *)
Definition origin (A : list (list nat)) (e : expr) : list nat := match e with EVar n => nth n A [] | _ => [] end.
Fixpoint zip_app (a b : list (list nat)) : list (list nat) :=
  match a, b with x :: a, y :: b => (x ++ y) :: zip_app a b | _, _ => [] end.
Fixpoint effects (A : list (list nat)) (p : code) : option (list nat * list (list nat)) :=
  match p with
  | CRet es => Some ([], map (origin A) es)
  | CLet e p => effects (A ++ [origin A e]) p
  | CIf _ _ _ p q =>
      match effects A p, effects A q with
      | Some (w1, r1), Some (w2, r2) => if Nat.eqb (length r1) (length r2) then Some (w1 ++ w2, zip_app r1 r2) else None
      | _, _ => None
      end
  | CEmpty _ p => effects (A ++ [[]]) p
  | CSum _ p => effects (A ++ [[]]) p
  | CSet x _ _ p => match effects A p with Some (w, r) => Some (nth x A [] ++ w, r) | None => None end
  | CCall f args p =>
      match effects (map (fun k => nth k A []) args) f with
      | Some (w1, r1) => match effects (A ++ r1) p with Some (w2, r) => Some (w1 ++ w2, r) | None => None end
      | None => None
      end
  end.
Section Effects.
Variable m : mode.
Variable N : nat.
Variable ps : names.
Definition from (v : slot) (o : list nat) : Prop := forall l, v = RArr l -> (l < N)%nat -> exists k, In k o /\ nth k ps (RNum Und) = RArr l.
Definition froms (env : names) (A : list (list nat)) : Prop := Forall2 from env A.
Definition hit (w : list nat) (l : nat) : Prop := exists k, In k w /\ nth k ps (RNum Und) = RArr l.
Definition kept (w : list nat) (h h' : store) : Prop :=
  (N <= length h')%nat /\ forall l, (l < N)%nat -> ~ hit w l -> nth l h' [] = nth l h [].
Lemma kept_same w h h' : (N <= length h)%nat -> same_arrays h h' -> kept w h h'.
Proof. intros L [L' E]. split; [lia|]. intros l Hl _. apply E. lia. Qed.
Lemma kept_trans w1 w2 a b c : kept w1 a b -> kept w2 b c -> kept (w1 ++ w2) a c.
Proof.
  intros [_ E1] [L E2]. split; auto. intros l Hl H. rewrite E2, E1; auto; intros (k & Hk & Ek); apply H; exists k; split; auto;
    apply in_or_app; auto.
Qed.
Lemma hit_app w1 w2 l : hit (w1 ++ w2) l <-> hit w1 l \/ hit w2 l.
Proof.
  split.
  - intros (k & Hk & E). apply in_app_or in Hk as [Hk|Hk]; [left|right]; exists k; auto.
  - intros [(k & Hk & E)|(k & Hk & E)]; exists k; split; auto; apply in_or_app; auto.
Qed.
Lemma kept_more w w' h h' : (forall l, hit w l -> hit w' l) -> kept w h h' -> kept w' h h'.
Proof. intros H [L E]. split; auto. Qed.
Lemma froms_nth env A n : froms env A -> from (nth n env (RNum Und)) (nth n A []).
Proof. intros F. revert n. induction F; intros [|n]; simpl; auto; intros l E; discriminate. Qed.
Lemma make_from h o h' v ks : (N <= length h)%nat -> make h o = (h', Ret v) -> from v ks.
Proof. intros L E. pose proof (look_make h o) as H. rewrite E in H. intros l -> Hl. destruct H as [H _]. specialize (H l eq_refl). lia. Qed.
Lemma cev_from h env A e h' v : (N <= length h)%nat -> froms env A -> cev m h env e = (h', Ret v) -> from v (origin A e).
Proof.
  intros L F E. destruct e as [n|r|o e|o e1 e2]; cbn [cev origin] in *.
  - injection E as <- <-. apply froms_nth. auto.
  - injection E as <- <-. intros l Hl. discriminate.
  - pose proof (cev_same m h env e) as S. destruct (cev m h env e) as [h1 [v1|x|]]; simpl in E; try discriminate.
    destruct S as [S _]. eapply make_from; [|eassumption]. simpl in S. lia.
  - pose proof (cev_same m h env e1) as S. destruct (cev m h env e1) as [h1 [v1|x|]]; simpl in E; try discriminate.
    pose proof (cev_same m h1 env e2) as S2. destruct (cev m h1 env e2) as [h2 [v2|x|]]; simpl in E; try discriminate.
    destruct S as [S _], S2 as [S2 _]. eapply make_from; [|eassumption]. simpl in S, S2. lia.
Qed.
Lemma cevs_from es : forall h env A h' vs, (N <= length h)%nat -> froms env A -> cevs m h env es = (h', Ret vs) ->
  froms vs (map (origin A) es).
Proof.
  induction es as [|e es IH]; intros h env A h' vs L F E; cbn [cevs] in E; simpl.
  - injection E as <- <-. constructor.
  - pose proof (cev_same m h env e) as [S _]. destruct (cev m h env e) as [h1 [v|x|]] eqn:Ev; simpl in E; try discriminate.
    simpl in S. destruct (cevs m h1 env es) as [h2 [vs'|x|]] eqn:Es; simpl in E; try discriminate. injection E as <- <-.
    constructor; [eapply cev_from; eauto|]. eapply IH; [|eassumption|eassumption]. lia.
Qed.
Lemma from_app_l v a b : from v a -> from v (a ++ b).
Proof. intros F l E Hl. destruct (F l E Hl) as (k & Hk & Ek). exists k. split; auto. apply in_or_app; auto. Qed.
Lemma from_app_r v a b : from v b -> from v (a ++ b).
Proof. intros F l E Hl. destruct (F l E Hl) as (k & Hk & Ek). exists k. split; auto. apply in_or_app; auto. Qed.
Lemma froms_zip_l vs : forall a b, length a = length b -> froms vs a -> froms vs (zip_app a b).
Proof.
  intros a b L F. revert b L. induction F as [|v o vs a Fv F IH]; intros [|y b] L; simpl in *; try discriminate; constructor.
  - apply from_app_l; auto.
  - apply IH. lia.
Qed.
Lemma froms_zip_r vs : forall a b, length a = length b -> froms vs b -> froms vs (zip_app a b).
Proof.
  intros a b L F. revert a L. induction F as [|v o vs b Fv F IH]; intros [|y a] L; simpl in *; try discriminate; constructor.
  - apply from_app_r; auto.
  - apply IH. lia.
Qed.
Definition sound (h : store) (r : after names) (w : list nat) (R : list (list nat)) : Prop :=
  kept w h (fst r) /\ forall vs, snd r = Ret vs -> froms vs R.
Lemma sound_stop h h' (o : outcome names) w R : kept w h h' -> (forall vs, o <> Ret vs) -> sound h (h', o) w R.
Proof. intros K H. split; auto. simpl. intros vs E. destruct (H _ E). Qed.
Lemma sound_after h h1 r w0 w R : kept w0 h h1 -> sound h1 r w R -> sound h r (w0 ++ w) R.
Proof. intros K [K2 F]. split; auto. eapply kept_trans; eauto. Qed.
Lemma sound_same h h1 r w R : (N <= length h)%nat -> same_arrays h h1 -> sound h1 r w R -> sound h r w R.
Proof. intros L S H. change w with ([] ++ w). eapply sound_after; [|eassumption]. apply kept_same; auto. Qed.
Lemma effects_sound p : forall A w R h env, effects A p = Some (w, R) -> (N <= length h)%nat -> froms env A ->
  sound h (crun m p h env) w R.
Proof.
  induction p as [es|e p IH|c e1 e2 p IHp q IHq|x p IH|e p IH|x t s p IH|f IHf args p IH]; intros A w R h env E L F;
    cbn [effects crun] in *.
  - injection E as <- <-. split; [apply kept_same; auto; apply cevs_same|]. intros vs Ev.
    destruct (cevs m h env es) as [h' r] eqn:Ec. simpl in Ev. subst r. eapply cevs_from; eauto.
  - pose proof (cev_same m h env e) as S. destruct (cev m h env e) as [h1 [v|y|]] eqn:Ev; simpl in S |- *;
      try (apply sound_stop; [apply kept_same; auto|discriminate]).
    apply (sound_same h h1); auto. eapply IH; [eassumption|destruct S; lia|]. apply Forall2_app; auto. constructor; [|constructor].
    eapply cev_from; eauto.
  - destruct (effects A p) as [[w1 r1]|] eqn:E1; [|discriminate]. destruct (effects A q) as [[w2 r2]|] eqn:E2; [|discriminate].
    destruct (Nat.eqb (length r1) (length r2)) eqn:El; [|discriminate]. apply Nat.eqb_eq in El. injection E as <- <-.
    pose proof (cev_same m h env e1) as S. destruct (cev m h env e1) as [h1 [v|y|]] eqn:Ev; simpl in S |- *;
      try (apply sound_stop; [apply kept_same; auto|discriminate]).
    apply (sound_same h h1); auto. assert (L1 : (N <= length h1)%nat) by (destruct S; lia).
    pose proof (cev_same m h1 env e2) as S2. destruct (cev m h1 env e2) as [h2 [v2|y|]] eqn:Ev2; simpl in S2 |- *;
      try (apply sound_stop; [apply kept_same; auto|discriminate]).
    apply (sound_same h1 h2); auto. assert (L2 : (N <= length h2)%nat) by (destruct S2; lia).
    destruct truth as [[|]|y|]; try (apply sound_stop; [apply kept_same; auto; apply same_refl|discriminate]).
    + destruct (IHp _ _ _ h2 env E1 L2 F) as [K Fr]. split.
      * eapply kept_more; [|eassumption]. intros l Hl. apply hit_app; auto.
      * intros vs Hv. apply froms_zip_l; auto.
    + destruct (IHq _ _ _ h2 env E2 L2 F) as [K Fr]. split.
      * eapply kept_more; [|eassumption]. intros l Hl. apply hit_app; auto.
      * intros vs Hv. apply froms_zip_r; auto.
  - destruct look as [y|l] eqn:El; [apply sound_stop; [apply kept_same; auto; apply same_refl|discriminate]|].
    cbn [make fresh next]. apply (sound_same h (h ++ [repeat Und (length l)])); auto; [apply same_app|].
    eapply IH; [eassumption|rewrite app_length; lia|]. apply Forall2_app; auto. constructor; [|constructor].
    intros k [= <-] Hk. lia.
  - pose proof (cev_same m h env e) as S. destruct (cev m h env e) as [h1 [v|y|]] eqn:Ev; simpl in S |- *;
      try (apply sound_stop; [apply kept_same; auto|discriminate]).
    apply (sound_same h h1); auto. destruct (look h1 v); (eapply IH; [eassumption|destruct S; lia|]); apply Forall2_app; auto;
      (constructor; [|constructor]); intros k Hk; discriminate.
  - destruct (effects A p) as [[w1 r1]|] eqn:E1; [|discriminate]. injection E as <- <-.
    destruct (nth x env (RNum Und)) as [y|l] eqn:En; [apply sound_stop; [apply kept_same; auto; apply same_refl|discriminate]|].
    assert (S : same_arrays h (fst (crhs m h env (length (nth l h [])) s))).
    { destruct s as [e|]; cbn [crhs]; [|apply same_refl]. apply next_same; [apply cev_same|]. intros h1 v S1 _. exact S1. }
    destruct (crhs m h env (length (nth l h [])) s) as [h1 [new|y|]]; simpl in S |- *;
      try (apply sound_stop; [apply kept_same; auto|discriminate]).
    assert (L1 : (N <= length h1)%nat) by (destruct S; lia). apply (sound_same h h1); auto.
    assert (S2 : same_arrays h1 (fst (ctest m h1 env t))).
    { destruct t as [c e1 e2|e]; cbn [ctest].
      - apply next_same; [apply cev_same|]. intros h2 v S2 _. eapply same_trans; [eassumption|].
        apply next_same; [apply cev_same|]. intros h3 v3 S3 _. exact S3.
      - apply next_same; [apply cev_same|]. intros h2 v S2 _. exact S2. }
    destruct (ctest m h1 env t) as [h2 [mask|y|]]; simpl in S2 |- *;
      try (apply sound_stop; [apply kept_same; auto|discriminate]).
    assert (L2 : (N <= length h2)%nat) by (destruct S2; lia). apply (sound_same h1 h2); auto.
    destruct (assign (nth l h2 []) mask new) as [a|y|];
      try (apply sound_stop; [apply kept_same; auto; apply same_refl|discriminate]).
    apply (sound_after h2 (update h2 l a)); [|eapply IH; eauto; rewrite update_length; auto].
    split; [rewrite update_length; auto|]. intros k Hk Hh. destruct (Nat.eq_dec k l) as [->|Hn].
    + exfalso. apply Hh. destruct (froms_nth _ _ x F _ En Hk) as (j & Hj & Ej). exists j; auto.
    + apply update_other. auto.
  - destruct (effects _ f) as [[w1 r1]|] eqn:E1; [|discriminate]. destruct (effects (A ++ r1) p) as [[w2 r2]|] eqn:E2; [|discriminate].
    injection E as <- <-.
    assert (Fa : froms (map (fun k => nth k env (RNum Und)) args) (map (fun k => nth k A []) args)).
    { clear -F. induction args as [|k args IH]; simpl; constructor; auto. apply froms_nth. auto. }
    destruct (IHf _ _ _ h _ E1 L Fa) as [K1 F1]. destruct (crun m f h _) as [h1 [vs|y|]]; simpl in K1, F1 |- *;
      try (apply sound_stop; [eapply kept_more; [|eassumption]; intros l Hl; apply hit_app; auto|discriminate]).
    apply (sound_after h h1); auto. destruct K1 as [L1 _]. eapply IH; [eassumption|auto|].
    apply Forall2_app; auto. exact (F1 vs eq_refl).
Qed.
End Effects.
Lemma froms_args N ps : froms N ps ps (map (fun k => [k]) (seq 0 (length ps))).
Proof.
  assert (G : forall pre qs, ps = pre ++ qs -> froms N ps qs (map (fun k => [k]) (seq (length pre) (length qs)))).
  { intros pre qs. revert pre. induction qs as [|q qs IH]; intros pre E; simpl; constructor.
    - intros l -> Hl. exists (length pre). split; [left; auto|]. rewrite E, app_nth2, Nat.sub_diag by lia. auto.
    - specialize (IH (pre ++ [q])). rewrite app_length in IH. simpl in IH. rewrite Nat.add_comm in IH. apply IH.
      rewrite <- app_assoc. auto. }
  exact (G [] ps eq_refl).
Qed.
(** The summary of a function of n arguments. *)
Definition summary (n : nat) (p : code) := effects (map (fun k => [k]) (seq 0 n)) p.
Lemma summary_sound m n p w R h env : summary n p = Some (w, R) -> length env = n ->
  sound (length h) env h (crun m p h env) w R.
Proof. intros E <-. eapply effects_sound; [eassumption|auto|apply froms_args]. Qed.
Lemma summary_pure m n p R h env : summary n p = Some ([], R) -> length env = n -> same_arrays h (fst (crun m p h env)).
Proof.
  intros E L. destruct (summary_sound m n p [] R h env E L) as [[L1 K] _]. split; auto.
  intros l Hl. apply K; auto. intros (k & [] & _).
Qed.

(** ** A call sees of the store only the contents of its arguments. *)
Section Sim.
Variable m : mode.
Variables N N1 : nat.
Variable D : nat -> Prop.
Hypothesis D_in : forall l, D l -> (l < N)%nat -> (l < N1)%nat.
Definition moved (l : nat) : nat := if Nat.ltb l N then l else (l - N + N1)%nat.
Definition move (v : slot) : slot := match v with RNum x => RNum x | RArr l => RArr (moved l) end.
Definition vis (l : nat) : Prop := (l < N)%nat -> D l.
Definition sim (h h1 : store) : Prop :=
  (N <= length h)%nat /\ (N1 <= length h1)%nat /\ (length h + N1 = length h1 + N)%nat /\
  forall l, vis l -> (l < length h)%nat -> nth (moved l) h1 [] = nth l h [].
Definition ok (h : store) (env : names) : Prop := forall l, In (RArr l) env -> (l < length h)%nat /\ vis l.
Lemma moved_inj k l : vis k -> vis l -> moved k = moved l -> k = l.
Proof.
  unfold moved, vis. intros Hk Hl. destruct (Nat.ltb_spec k N), (Nat.ltb_spec l N); try lia.
  - specialize (D_in k). intuition lia.
  - specialize (D_in l). intuition lia.
Qed.
Lemma moved_in h h1 l : sim h h1 -> vis l -> (l < length h)%nat -> (moved l < length h1)%nat.
Proof.
  intros (A & B & C & _) V H. unfold moved, vis in *. destruct (Nat.ltb_spec l N); [|lia]. specialize (D_in l). intuition lia.
Qed.
Lemma sim_look h h1 v : sim h h1 -> ok h [v] -> look h1 (move v) = look h v.
Proof. intros (_ & _ & _ & S) O. destruct v as [x|l]; simpl; auto. destruct (O l) as [O1 O2]; [left; auto|]. rewrite S; auto. Qed.
Lemma ok_nth h env n : ok h env -> ok h [nth n env (RNum Und)].
Proof.
  intros O l [E|[]]. destruct (Nat.lt_ge_cases n (length env)) as [L|L].
  - apply O. rewrite <- E. apply nth_In. auto.
  - rewrite nth_overflow in E by auto. discriminate.
Qed.
Lemma move_nth env n : nth n (map move env) (RNum Und) = move (nth n env (RNum Und)).
Proof. rewrite <- (map_nth move). auto. Qed.
Lemma ok_longer h h' env : (length h <= length h')%nat -> ok h env -> ok h' env.
Proof. intros L O l Hl. destruct (O l Hl). split; auto. lia. Qed.
Lemma ok_app h a b : ok h a -> ok h b -> ok h (a ++ b).
Proof. intros A B l Hl. apply in_app_or in Hl as [Hl|Hl]; auto. Qed.
Lemma sim_new h h1 l : sim h h1 -> sim (h ++ [l]) (h1 ++ [l]) /\ moved (length h) = length h1 /\ vis (length h).
Proof.
  intros (A & B & C & S). unfold moved, vis. split; [|split; [destruct (Nat.ltb_spec (length h) N); lia|lia]].
  split; [rewrite app_length; lia|]. split; [rewrite app_length; lia|]. split; [rewrite !app_length; simpl; lia|].
  intros k V Hk. rewrite app_length in Hk. simpl in Hk. destruct (Nat.eq_dec k (length h)) as [->|Hn].
  - rewrite (app_nth2 h) by lia. rewrite Nat.sub_diag. unfold moved. destruct (Nat.ltb_spec (length h) N); [lia|].
    rewrite app_nth2 by lia. replace (length h - N + N1 - length h1)%nat with 0%nat by lia. auto.
  - rewrite (app_nth1 h) by lia. rewrite app_nth1; [apply S; auto; lia|].
    apply (moved_in h); auto; [repeat split; auto|lia].
Qed.
Lemma sim_update h h1 l a : sim h h1 -> vis l -> (l < length h)%nat -> sim (update h l a) (update h1 (moved l) a).
Proof.
  intros S V L. pose proof (moved_in h h1 l S V L) as L1. destruct S as (A & B & C & S).
  split; [rewrite update_length; auto|]. split; [rewrite update_length; auto|]. split; [rewrite !update_length; auto|].
  intros k Vk Hk. rewrite update_length in Hk. destruct (Nat.eq_dec k l) as [->|Hn].
  - rewrite !update_same; auto.
  - rewrite !update_other; auto. intros E. apply Hn. apply moved_inj; auto.
Qed.
Definition simr {A} (P : store -> A -> A -> Prop) (r r1 : after A) : Prop :=
  sim (fst r) (fst r1) /\
  match snd r, snd r1 with
  | Ret a, Ret a1 => P (fst r) a a1
  | Raise e, Raise e1 => e = e1
  | Unknown, Unknown => True
  | _, _ => False
  end.
Definition one (h : store) (v v1 : slot) : Prop := ok h [v] /\ v1 = move v.
Definition many (h : store) (v v1 : names) : Prop := ok h v /\ v1 = map move v.
Lemma sim_make h h1 o : sim h h1 -> simr one (make h o) (make h1 o).
Proof.
  intros S. destruct o as [[x|l]|e|]; unfold simr; simpl; auto.
  - split; auto. split; auto. intros l [E|[]]. discriminate.
  - destruct (sim_new h h1 l S) as (S' & E & V). split; auto. split; [|simpl; congruence].
    intros k [[= <-]|[]]. rewrite app_length. simpl. split; auto. lia.
Qed.
Lemma next_sim {A B} (P : store -> A -> A -> Prop) (Q : store -> B -> B -> Prop) r r1 k k1 : simr P r r1 ->
  (forall h h1 a a1, r = (h, Ret a) -> r1 = (h1, Ret a1) -> sim h h1 -> P h a a1 -> simr Q (k h a) (k1 h1 a1)) ->
  simr Q (next r k) (next r1 k1).
Proof.
  destruct r as [h [a|e|]], r1 as [h1 [a1|e1|]]; unfold simr; simpl; intros [S H] K; try contradiction; auto.
Qed.
Lemma cev_sim e : forall h h1 env, sim h h1 -> ok h env -> simr one (cev m h env e) (cev m h1 (map move env) e).
Proof.
  induction e as [n|r|o e IH|o e1 IH1 e2 IH2]; intros h h1 env S O; cbn [cev].
  - split; auto. simpl. split; [apply ok_nth; auto|]. apply move_nth.
  - split; auto. simpl. split; auto. intros l [E|[]]. discriminate.
  - eapply next_sim; [apply IH; auto|]. intros h' h1' v v1 E E1 S' [Ov ->]. rewrite (sim_look h' h1'); auto. apply sim_make; auto.
  - eapply next_sim; [apply IH1; auto|]. intros h' h1' v v1 E E1 S' [Ov ->].
    pose proof (cev_same m h env e1) as [L _]. rewrite E in L. simpl in L.
    eapply next_sim; [apply IH2; auto; eapply ok_longer; eauto|]. intros h2 h12 w w1 E2 E12 S2 [Ow ->].
    pose proof (cev_same m h' env e2) as [L2 _]. rewrite E2 in L2. simpl in L2.
    rewrite !(sim_look h2 h12); auto; [apply sim_make; auto|]. eapply ok_longer; eauto.
Qed.
Lemma cevs_sim es : forall h h1 env, sim h h1 -> ok h env -> simr many (cevs m h env es) (cevs m h1 (map move env) es).
Proof.
  induction es as [|e es IH]; intros h h1 env S O; cbn [cevs].
  - split; auto. simpl. split; auto. intros l [].
  - eapply next_sim; [apply cev_sim; auto|]. intros h' h1' v v1 E E1 S' [Ov ->].
    pose proof (cev_same m h env e) as [L _]. rewrite E in L. simpl in L.
    eapply next_sim; [apply IH; auto; eapply ok_longer; eauto|]. intros h2 h12 w w1 E2 E12 S2 [Ow ->].
    pose proof (cevs_same m es h' env) as [L2 _]. rewrite E2 in L2. simpl in L2.
    split; auto. simpl. split; auto. change (v :: w) with ([v] ++ w). apply ok_app; auto. eapply ok_longer; eauto.
Qed.
Definition same_list (h : store) (a b : list fl) : Prop := a = b.
Lemma crhs_sim h h1 env n s : sim h h1 -> ok h env -> simr same_list (crhs m h env n s) (crhs m h1 (map move env) n s).
Proof.
  intros S O. destruct s as [e|]; cbn [crhs].
  - eapply next_sim; [apply cev_sim; auto|]. intros h' h1' v v1 E E1 S' [Ov ->]. split; auto. simpl. rewrite (sim_look h' h1'); auto.
    reflexivity.
  - split; auto. reflexivity.
Qed.
Lemma crhs_longer h env n s : same_arrays h (fst (crhs m h env n s)).
Proof.
  destruct s as [e|]; cbn [crhs]; [|apply same_refl]. apply next_same; [apply cev_same|]. intros h1 v S1 _. exact S1.
Qed.
Lemma ctest_sim h h1 env t : sim h h1 -> ok h env -> simr same_list (ctest m h env t) (ctest m h1 (map move env) t).
Proof.
  intros S O. destruct t as [c e1 e2|e]; cbn [ctest].
  - eapply next_sim; [apply cev_sim; auto|]. intros h' h1' v v1 E E1 S' [Ov ->].
    pose proof (cev_same m h env e1) as [L _]. rewrite E in L. simpl in L.
    eapply next_sim; [apply cev_sim; auto; eapply ok_longer; eauto|]. intros h2 h12 w w1 E2 E12 S2 [Ow ->].
    pose proof (cev_same m h' env e2) as [L2 _]. rewrite E2 in L2. simpl in L2.
    rewrite !(sim_look h2 h12); auto; [|eapply ok_longer; eauto]. split; auto. simpl. destruct mask2; auto. reflexivity.
  - eapply next_sim; [apply cev_sim; auto|]. intros h' h1' v v1 E E1 S' [Ov ->]. rewrite (sim_look h' h1'); auto. split; auto.
    simpl. destruct look; auto. reflexivity.
Qed.
Lemma ctest_longer h env t : same_arrays h (fst (ctest m h env t)).
Proof.
  destruct t as [c e1 e2|e]; cbn [ctest].
  - apply next_same; [apply cev_same|]. intros h2 v S2 _. eapply same_trans; [eassumption|].
    apply next_same; [apply cev_same|]. intros h3 v3 S3 _. exact S3.
  - apply next_same; [apply cev_same|]. intros h2 v S2 _. exact S2.
Qed.
Lemma crun_longer p : forall h env, (length h <= length (fst (crun m p h env)))%nat.
Proof.
  assert (T : forall {A B} h (r : after A) (k : store -> A -> after B), same_arrays h (fst r) ->
    (forall h' a, (length h <= length h')%nat -> (length h' <= length (fst (k h' a)))%nat) ->
    (length h <= length (fst (next r k)))%nat).
  { intros A B h r k [L _] K. destruct r as [h' [a|e|]]; simpl in *; auto. specialize (K h' a L). lia. }
  induction p as [es|e p IH|c e1 e2 p IHp q IHq|x p IH|e p IH|x t s p IH|f IHf args p IH]; intros h env; cbn [crun].
  - destruct (cevs_same m es h env). auto.
  - apply T; [apply cev_same|]. intros. apply IH.
  - apply T; [apply cev_same|]. intros h' v L. apply T; [apply cev_same|]. intros h2 w L2. destruct truth as [[|]|y|]; simpl; auto.
  - destruct look; simpl; auto. etransitivity; [|apply IH]. rewrite app_length. lia.
  - apply T; [apply cev_same|]. intros h' v L. destruct look; apply IH.
  - destruct nth as [y|l]; simpl; auto. apply T; [apply crhs_longer|]. intros h' new L. apply T; [apply ctest_longer|].
    intros h2 mask L2. destruct assign; simpl; auto. etransitivity; [|apply IH]. rewrite update_length. auto.
  - specialize (IHf h (map (fun k => nth k env (RNum Und)) args)). destruct (crun m f h _) as [h' [vs|e|]]; simpl in *; auto.
    specialize (IH h' (env ++ vs)). lia.
Qed.
Lemma crun_sim p : forall h h1 env, sim h h1 -> ok h env -> simr many (crun m p h env) (crun m p h1 (map move env)).
Proof.
  induction p as [es|e p IH|c e1 e2 p IHp q IHq|x p IH|e p IH|x t s p IH|f IHf args p IH]; intros h h1 env S O; cbn [crun].
  - apply cevs_sim; auto.
  - eapply next_sim; [apply cev_sim; auto|]. intros h' h1' v v1 E E1 S' [Ov ->].
    pose proof (cev_same m h env e) as [L _]. rewrite E in L. simpl in L.
    replace (map move env ++ [move v]) with (map move (env ++ [v])) by apply map_app.
    apply IH; auto. apply ok_app; auto. eapply ok_longer; eauto.
  - eapply next_sim; [apply cev_sim; auto|]. intros h' h1' v v1 E E1 S' [Ov ->].
    pose proof (cev_same m h env e1) as [L _]. rewrite E in L. simpl in L.
    eapply next_sim; [apply cev_sim; auto; eapply ok_longer; eauto|]. intros h2 h12 w w1 E2 E12 S2 [Ow ->].
    pose proof (cev_same m h' env e2) as [L2 _]. rewrite E2 in L2. simpl in L2.
    rewrite !(sim_look h2 h12); auto; [|eapply ok_longer; eauto].
    destruct truth as [[|]|y|]; [apply IHp|apply IHq|split; simpl; auto|split; simpl; auto]; auto; eapply ok_longer; [|eassumption|
      |eassumption]; lia.
  - rewrite move_nth, (sim_look h h1); auto; [|apply ok_nth; auto]. destruct look as [y|l]; [split; simpl; auto|].
    eapply next_sim; [apply (sim_make h h1); auto|]. intros h' h1' v v1 E E1 S' [Ov ->].
    pose proof (make_same h (Ret (VA (repeat Und (length l))))) as [L _]. rewrite E in L. simpl in L.
    replace (map move env ++ [move v]) with (map move (env ++ [v])) by apply map_app.
    apply IH; auto. apply ok_app; auto. eapply ok_longer; eauto.
  - eapply next_sim; [apply cev_sim; auto|]. intros h' h1' v v1 E E1 S' [Ov ->].
    pose proof (cev_same m h env e) as [L _]. rewrite E in L. simpl in L. rewrite (sim_look h' h1'); auto.
    assert (O' : forall y, ok h' (env ++ [RNum y])).
    { intros y. apply ok_app; [eapply ok_longer; eauto|]. intros l [Hl|[]]. discriminate. }
    destruct (look h' v) as [y|l].
    + replace (map move env ++ [RNum y]) with (map move (env ++ [RNum y])) by apply map_app. apply IH; auto.
    + replace (map move env ++ [RNum (fsum l)]) with (map move (env ++ [RNum (fsum l)])) by apply map_app. apply IH; auto.
  - rewrite move_nth. destruct (nth x env (RNum Und)) as [y|l] eqn:En; simpl move; cbv iota; [split; simpl; auto|].
    assert (Ol : ok h [RArr l]) by (rewrite <- En; apply ok_nth; auto).
    destruct (Ol l) as [Ll Vl]; [left; auto|].
    assert (El : nth (moved l) h1 [] = nth l h []) by (apply S; auto). rewrite El.
    eapply next_sim; [apply crhs_sim; auto|]. intros h' h1' new new1 E E1 S' Hn. unfold same_list in Hn. subst new1.
    pose proof (crhs_longer h env (length (nth l h [])) s) as [L _]. rewrite E in L. simpl in L.
    eapply next_sim; [apply ctest_sim; auto; eapply ok_longer; eauto|]. intros h2 h12 w w1 E2 E12 S2 Hn. unfold same_list in Hn. subst w1.
    pose proof (ctest_longer h' env t) as [L2 _]. rewrite E2 in L2. simpl in L2.
    assert (El2 : nth (moved l) h12 [] = nth l h2 []) by (apply S2; auto; lia). rewrite El2.
    destruct assign as [a|y|]; [|split; simpl; auto|split; simpl; auto].
    apply IH; [apply sim_update; auto; lia|]. eapply ok_longer; [|eassumption]. rewrite update_length. lia.
  - assert (Ea : map (fun k => nth k (map move env) (RNum Und)) args = map move (map (fun k => nth k env (RNum Und)) args)).
    { rewrite map_map. apply map_ext. intros k. apply move_nth. }
    rewrite Ea. eapply next_sim; [apply IHf; auto|].
    { intros l Hl. apply in_map_iff in Hl as (k & Hk & _). apply (ok_nth h env k O). left. auto. }
    intros h' h1' vs vs1 E E1 S' [Ov ->].
    pose proof (crun_longer f h (map (fun k => nth k env (RNum Und)) args)) as L. rewrite E in L. simpl in L.
    rewrite <- map_app. apply IH; auto. apply ok_app; auto. eapply ok_longer; eauto.
Qed.
End Sim.

Lemma call_sim m p h h1 env : in_store h env -> in_store h1 env -> map (look h) env = map (look h1) env ->
  contents (crun m p h env) = contents (crun m p h1 env) /\
  forall l, In (RArr l) env -> nth l (fst (crun m p h env)) [] = nth l (fst (crun m p h1 env)) [].
Proof.
  intros I I1 E. set (D := fun l => In (RArr l) env).
  assert (Dn : forall l, D l -> (l < length h)%nat -> (l < length h1)%nat) by (intros l Hl _; apply I1; auto).
  assert (Mv : forall l, In (RArr l) env -> moved (length h) (length h1) l = l).
  { intros l Hl. unfold moved. destruct (Nat.ltb_spec l (length h)) as [_|G]; auto. specialize (I l Hl). lia. }
  assert (S : sim (length h) (length h1) D h h1).
  { split; auto. split; auto. split; [lia|]. intros l V Hl. pose proof (V Hl) as Hd. rewrite Mv by auto.
    assert (G : forall vs, In (RArr l) vs -> map (look h) vs = map (look h1) vs -> nth l h1 [] = nth l h []).
    { clear. induction vs as [|v vs IH]; intros Hv E; [destruct Hv|]. simpl in E. injection E as E0 E. destruct Hv as [->|Hv].
      - simpl in E0. congruence.
      - apply IH; auto. }
    apply (G env); auto. }
  assert (O : ok (length h) D h env) by (intros l Hl; split; [apply I; auto|intros _; exact Hl]).
  assert (Em : map (move (length h) (length h1)) env = env).
  { rewrite <- (map_id env) at 2. apply map_ext_in. intros [x|l] Hv; simpl; [auto|]. f_equal. auto. }
  pose proof (crun_sim m _ _ D Dn p h h1 env S O) as R. rewrite Em in R.
  pose proof (crun_longer m p h env) as L.
  destruct (crun m p h env) as [h' r], (crun m p h1 env) as [h1' r1], R as [S' R]. simpl in *. split.
  - destruct r as [vs|e|], r1 as [vs1|e1|]; try contradiction; try congruence. destruct R as [Ov ->]. f_equal.
    rewrite map_map. apply map_ext_in. intros v Hv. symmetry. eapply sim_look; eauto.
    intros l [->|[]]. apply Ov; auto.
  - intros l Hl. destruct S' as (_ & _ & _ & S'). rewrite <- (S' l); [rewrite Mv; auto|intros _; exact Hl|].
    specialize (I l Hl). lia.
Qed.

(** ** Results that are new arrays, no two of them the same. *)
(** [rt]: for each name the first name that holds the same array (names below n are the arguments). *)
Definition root (rt : list nat) (e : expr) : option nat := match e with EVar j => Some (nth j rt 0%nat) | _ => None end.
Fixpoint apart (n : nat) (rt : list nat) (es : list expr) (seen : list nat) : bool :=
  match es with
  | [] => true
  | e :: es =>
      match root rt e with
      | Some r => Nat.leb n r && negb (existsb (Nat.eqb r) seen) && apart n rt es (r :: seen)
      | None => apart n rt es seen
      end
  end.
Fixpoint separate (n : nat) (rt : list nat) (p : prog) : bool :=
  match p with
  | PRet es => apart n rt es []
  | PLet e p => separate n (rt ++ [match root rt e with Some r => r | None => length rt end]) p
  | PIf _ _ _ p q => separate n rt p && separate n rt q
  end.
Definition rooted (N n : nat) (env : names) (rt : list nat) : Prop :=
  length env = length rt /\
  (forall i, (i < length rt)%nat -> (nth i rt 0 <= i)%nat) /\
  (forall i l, nth i env (RNum Und) = RArr l -> (n <= nth i rt 0)%nat -> (N <= l)%nat) /\
  (forall i j l, nth i env (RNum Und) = RArr l -> nth j env (RNum Und) = RArr l -> (N <= l)%nat -> nth i rt 0%nat = nth j rt 0%nat).
Lemma cev_new m h env e : match cev m h env e with
  | (h', Ret (RArr l)) => (exists j, e = EVar j /\ nth j env (RNum Und) = RArr l /\ h' = h) \/
                          ((forall j, e <> EVar j) /\ (length h <= l < length h')%nat)
  | _ => True end.
Proof.
  destruct e as [n|r|o e|o e1 e2]; cbn [cev].
  - simpl. destruct nth eqn:E; auto. left. exists n. auto.
  - simpl. auto.
  - pose proof (cev_same m h env e) as [S _]. destruct (cev m h env e) as [h1 [v|x|]]; simpl in *; auto.
    pose proof (look_make h1 (app1 o (look h1 v))) as L. destruct make as [h2 [[x|l]|x|]]; auto. right.
    split; [discriminate|]. destruct L as [L _]. specialize (L l eq_refl). lia.
  - pose proof (cev_same m h env e1) as [S _]. destruct (cev m h env e1) as [h1 [v|x|]]; simpl in *; auto.
    pose proof (cev_same m h1 env e2) as [S2 _]. destruct (cev m h1 env e2) as [h2 [w|x|]]; simpl in *; auto.
    pose proof (look_make h2 (app2 m o (look h2 v) (look h2 w))) as L. destruct make as [h3 [[x|l]|x|]]; auto. right.
    split; [discriminate|]. destruct L as [L _]. specialize (L l eq_refl). lia.
Qed.
Lemma nth_slot (env : names) i l : nth i env (RNum Und) = RArr l -> (i < length env)%nat.
Proof. intros E. destruct (Nat.lt_ge_cases i (length env)); auto. rewrite nth_overflow in E by auto. discriminate. Qed.
Lemma root_in (env : names) rt j l : length env = @length nat rt -> nth j env (RNum Und) = RArr l -> (j < length rt)%nat.
Proof. intros L E. apply nth_slot in E. lia. Qed.
(** [seen]: the roots of results already there; they are arrays of [old]. *)
Lemma cevs_new m N n es : forall h env rt seen h' vs, (N <= length h)%nat -> in_store h env -> rooted N n env rt ->
  apart n rt es seen = true -> cevs m h env es = (h', Ret vs) ->
  (forall i l, nth i vs (RNum Und) = RArr l -> (N <= l < length h')%nat /\
     ((length h <= l)%nat \/ exists j, nth j env (RNum Und) = RArr l /\ ~ In (nth j rt 0%nat) seen)) /\
  (forall i j l, nth i vs (RNum Und) = RArr l -> nth j vs (RNum Und) = RArr l -> i = j).
Proof.
  induction es as [|e es IH]; intros h env rt seen h' vs L I Rt A E; cbn [cevs] in E.
  - injection E as <- <-. split; intros [|i]; discriminate.
  - pose proof (cev_new m h env e) as C. pose proof (cev_same m h env e) as S.
    destruct (cev m h env e) as [h1 [v|x|]] eqn:Ev; simpl in E, S; try discriminate.
    destruct (cevs m h1 env es) as [h2 [vs'|x|]] eqn:Es; simpl in E; try discriminate. injection E as <- <-.
    pose proof (cevs_same m es h1 env) as S2. rewrite Es in S2. simpl in S2.
    assert (L1 : (N <= length h1)%nat) by (destruct S; lia).
    assert (I1 : in_store h1 env) by (eapply in_store_same; eauto).
    cbn [apart] in A.
    assert (A' : exists seen', apart n rt es seen' = true /\ (forall r, In r seen -> In r seen') /\
                   match root rt e with Some r => (n <= r)%nat /\ ~ In r seen /\ In r seen' | None => True end).
    { destruct (root rt e) as [r|]; [|exists seen; auto].
      apply andb_prop in A as [A A3]. apply andb_prop in A as [A1 A2]. exists (r :: seen). split; auto.
      split; [intros; right; auto|]. split; [apply Nat.leb_le; auto|]. split; [|left; auto].
      intros Hr. rewrite Bool.negb_true_iff in A2. assert (existsb (Nat.eqb r) seen = true); [|congruence].
      apply existsb_exists. exists r. split; auto. apply Nat.eqb_refl. }
    destruct A' as (seen' & A' & Hs & Hr).
    destruct (IH h1 env rt seen' h2 vs' L1 I1 Rt A' Es) as [P Q].
    assert (Hv : forall l, v = RArr l -> (N <= l < length h2)%nat /\
        ((length h <= l < length h1)%nat /\ (forall j, e <> EVar j) \/
         exists j, e = EVar j /\ nth j env (RNum Und) = RArr l /\ h1 = h)).
    { intros l ->. destruct Rt as (Le & Lo & Rn & Re). destruct C as [(j & -> & Ej & ->)|[Hn C]].
      - simpl in Hr. destruct Hr as (Hr & _ & _). split; [|right; exists j; auto].
        split; [eapply Rn; eauto|]. specialize (in_store_nth _ _ _ _ I Ej) as G. destruct S2. lia.
      - destruct S as [S _]. destruct S2 as [S2 _]. split; [lia|left; auto]. }
    split.
    + intros [|i] l Hl; simpl in Hl.
      * destruct (Hv l Hl) as [B D]. split; auto. destruct D as [[D _]|(j & -> & Ej & ->)]; [left; lia|].
        right. exists j. split; auto. simpl in Hr. apply Hr.
      * destruct (P i l Hl) as [B D]. split; auto. destruct D as [D|(j & Ej & Hj)]; [left; destruct S; lia|].
        right. exists j. split; auto.
    + assert (X : forall i l, v = RArr l -> nth i vs' (RNum Und) = RArr l -> False).
      { intros i l Hl Hi. destruct (Hv l Hl) as [B [[D Dn]|(j & -> & Ej & ->)]]; destruct (P i l Hi) as [B2 [D2|(k & Ek & Hk)]].
        - lia.
        - apply in_store_nth with (n := k) (l := l) in I; auto. lia.
        - apply in_store_nth with (n := j) (l := l) in I; auto. lia.
        - destruct Rt as (Le & Lo & Rn & Re). rewrite (Re k j l Ek Ej) in Hk by lia. simpl in Hr. tauto. }
      intros [|i] [|j] l Hi Hj; simpl in Hi, Hj; auto.
      * destruct (X j l Hi Hj).
      * destruct (X i l Hj Hi).
      * f_equal. eapply Q; eauto.
Qed.
Lemma rooted_app m N n h env rt e h' v : (N <= length h)%nat -> (n <= length rt)%nat -> in_store h env -> rooted N n env rt ->
  cev m h env e = (h', Ret v) -> rooted N n (env ++ [v]) (rt ++ [match root rt e with Some r => r | None => length rt end]).
Proof.
  intros L Ln I (Le & Lo & Rn & Re) E. pose proof (cev_new m h env e) as C. rewrite E in C.
  assert (T : forall i l, nth i (env ++ [v]) (RNum Und) = RArr l ->
            ((i < length rt)%nat /\ nth i env (RNum Und) = RArr l) \/ (i = length rt /\ v = RArr l)).
  { intros i l H. destruct (Nat.lt_trichotomy i (length env)) as [G|[->|G]].
    - rewrite app_nth1 in H by auto. left. split; [lia|auto].
    - rewrite app_nth2, Nat.sub_diag in H by lia. right. auto.
    - rewrite nth_overflow in H; [discriminate|]. rewrite app_length. simpl. lia. }
  set (r := match root rt e with Some r => r | None => length rt end).
  assert (Nl : forall i, (i < length rt)%nat -> nth i (rt ++ [r]) 0%nat = nth i rt 0%nat) by (intros; apply app_nth1; auto).
  assert (Nr : nth (length rt) (rt ++ [r]) 0%nat = r) by (rewrite app_nth2, Nat.sub_diag by lia; auto).
  assert (Rv : forall l, v = RArr l -> (exists j, (j < length rt)%nat /\ r = nth j rt 0%nat /\ nth j env (RNum Und) = RArr l) \/
                                     (r = length rt /\ (length h <= l)%nat)).
  { intros l ->. destruct C as [(j & -> & Ej & _)|[Hn C]].
    - left. exists j. split; [eapply root_in; eauto|]. auto.
    - right. split; [|lia]. unfold r. destruct e; auto. destruct (Hn n0). auto. }
  split; [rewrite !app_length; simpl; lia|]. split; [|split].
  - intros i Hi. rewrite app_length in Hi. simpl in Hi. destruct (Nat.eq_dec i (length rt)) as [->|G].
    + rewrite Nr. unfold r. destruct e as [j|x|o e|o e1 e2]; simpl; auto.
      destruct (Nat.lt_ge_cases j (length rt)) as [Hj|Hj]; [|rewrite nth_overflow by auto; lia].
      specialize (Lo j Hj). lia.
    + rewrite Nl by lia. apply Lo. lia.
  - intros i l Hi Hn. destruct (T i l Hi) as [[G Hl]|[-> Hl]].
    + rewrite Nl in Hn by auto. eauto.
    + rewrite Nr in Hn. destruct (Rv l Hl) as [(j & Hj & Er & Ej)|[_ G]]; [|lia]. rewrite Er in Hn. eauto.
  - assert (X : forall i l, (i < length rt)%nat -> nth i env (RNum Und) = RArr l -> v = RArr l -> (N <= l)%nat ->
                  nth i rt 0%nat = r).
    { intros i l Hi Ei Hl Hn. destruct (Rv l Hl) as [(j & Hj & Er & Ej)|[_ G]].
      - rewrite Er. eauto.
      - specialize (in_store_nth _ _ _ _ I Ei). lia. }
    intros i j l Hi Hj Hn. destruct (T i l Hi) as [[Gi Hi']|[-> Hi']], (T j l Hj) as [[Gj Hj']|[-> Hj']]; auto.
    + rewrite !Nl by auto. eauto.
    + rewrite Nl, Nr by auto. eauto.
    + rewrite Nr, (Nl j) by auto. symmetry. eauto.
Qed.
Lemma separate_new m N n p : forall h env rt h' vs, (N <= length h)%nat -> (n <= length rt)%nat -> in_store h env ->
  rooted N n env rt -> separate n rt p = true -> crun m (lines p) h env = (h', Ret vs) ->
  (forall l, In (RArr l) vs -> (N <= l < length h')%nat) /\
  (forall i j l, nth i vs (RNum Und) = RArr l -> nth j vs (RNum Und) = RArr l -> i = j).
Proof.
  induction p as [es|e p IH|c e1 e2 p IHp q IHq]; intros h env rt h' vs L Ln I Rt S E; cbn [lines crun separate] in *.
  - destruct (cevs_new m N n es h env rt [] h' vs L I Rt S E) as [P Q]. split; auto.
    intros l Hl. apply (In_nth _ _ (RNum Und)) in Hl as (i & _ & Hi). apply (P i l Hi).
  - pose proof (cev_same m h env e) as G. pose proof (cev_val m e h env I) as V.
    destruct (cev m h env e) as [h1 [v|x|]] eqn:Ev; simpl in E, G; try discriminate.
    eapply IH; [| | | |eassumption|eassumption].
    + destruct G; lia.
    + rewrite app_length. lia.
    + apply in_store_app; [eapply in_store_same; eauto|]. destruct (ev_arr m (map (look h) env) e); simpl in V; try contradiction. apply V.
    + eapply rooted_app; eauto.
  - apply andb_prop in S as [S1 S2]. pose proof (cev_same m h env e1) as G.
    destruct (cev m h env e1) as [h1 [v|x|]] eqn:Ev; simpl in E, G; try discriminate.
    pose proof (cev_same m h1 env e2) as G2.
    destruct (cev m h1 env e2) as [h2 [w|x|]] eqn:Ev2; simpl in E, G2; try discriminate.
    assert (G3 : same_arrays h h2) by (eapply same_trans; eauto).
    assert (I2 : in_store h2 env) by (eapply in_store_same; eauto). assert (L2 : (N <= length h2)%nat) by (destruct G3; lia).
    destruct truth as [[|]|x|]; try discriminate; eauto.
Qed.
Lemma rooted_args N env : (forall l, In (RArr l) env -> (l < N)%nat) -> rooted N (length env) env (seq 0 (length env)).
Proof.
  intros H. split; [rewrite seq_length; auto|]. split; [|split].
  - intros i Hi. rewrite seq_length in Hi. rewrite seq_nth by auto. simpl. lia.
  - intros i l E Hn. pose proof (nth_slot _ _ _ E) as Hi. rewrite seq_nth in Hn by auto. simpl in Hn. lia.
  - intros i j l E _ Hl. exfalso. assert (In (RArr l) env) by (rewrite <- E; apply nth_In; eapply nth_slot; eauto).
    specialize (H l H0). lia.
Qed.
Lemma separate_sound m n p h env : separate n (seq 0 n) p = true -> length env = n -> in_store h env ->
  new_arrays h (crun m (lines p) h env).
Proof.
  intros S <- I. destruct (crun m (lines p) h env) as [h' [vs|e|]] eqn:E; simpl; auto.
  eapply separate_new; [| | | |eassumption|eassumption]; auto; [rewrite seq_length; auto|].
  apply rooted_args. exact I.
Qed.
