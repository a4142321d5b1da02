(** * L_Gap: nan goes through every operation, or meets one that ignores it. *)
From Verif Require Import Fl M_Array M_ArrayFns M_Store Spec16 Spec25.
Open Scope fl_scope.

(** No number. *)
Definition blank (x : fl) : Prop := match x with NaN | Und | Exc _ => True | _ => False end.
Definition open_ (x : fl) : Prop := match x with Und | Exc _ => True | _ => False end.
(** [x] comes from arguments with a gap, [y] from the same arguments with the gap filled. *)
Definition gap (x y : fl) : Prop := blank x \/ open_ y \/ x = y.

Lemma gap_eq x : gap x x.
Proof. right; right; reflexivity. Qed.
Lemma blank_gap x y : blank x -> gap x y.
Proof. left; assumption. Qed.
Lemma open_gap x y : open_ y -> gap x y.
Proof. right; left; assumption. Qed.
#[export] Hint Resolve gap_eq blank_gap open_gap : core.

Lemma blank1 o x : blank x -> o <> OPown 0 -> blank (sem1 o x).
Proof. destruct x; cbn; try tauto; intros _ H; destruct o as [| | | | | | | | | | | |[|n]]; cbn; try exact I; congruence. Qed.
Lemma blank2 m o x y : o <> OPow -> o <> OPowN -> blank x \/ blank y -> blank (sem2 m o x y).
Proof.
  intros H1 H2 H. destruct o; try congruence; cbn [sem2];
    destruct x, y, H as [H|H]; try (exfalso; exact H); cbn; try exact I; try (destruct (Req_EM_T _ _); try destruct m; exact I).
Qed.
Lemma rpower_0 a : Rpower a 0 = 1%R.
Proof. unfold Rpower. rewrite Rmult_0_l. apply exp_0. Qed.
Lemma int_part_0 : Int_part 0 = 0%Z.
Proof.
  destruct (base_Int_part 0) as [A B]. assert (Int_part 0 <= 0)%Z by (apply le_IZR; lra).
  assert (-1 < Int_part 0)%Z by (apply lt_IZR; lra). lia.
Qed.
Lemma fpow_0 m y : fpow m y (Fin 0) = Fin 1 \/ open_ (fpow m y (Fin 0)).
Proof.
  destruct y as [a| | | |e]; cbn; auto.
  - destruct (Rlt_dec 0 a); [rewrite rpower_0; left; reflexivity|]. destruct (Req_EM_T a 0).
    + destruct (Req_EM_T 0 0); [left; reflexivity|congruence].
    + rewrite int_part_0. destruct (Req_EM_T 0 (IZR 0)); [left; reflexivity|congruence].
  - destruct (Req_EM_T 0 0); [left; reflexivity|congruence].
Qed.
Lemma fpow_1 m y : fpow m (Fin 1) y = Fin 1 \/ open_ (fpow m (Fin 1) y).
Proof.
  destruct y as [b| | | |e]; cbn; auto.
  - destruct (Rlt_dec 0 1); [|lra]. left. f_equal. unfold Rpower. rewrite ln_1, Rmult_0_r. apply exp_0.
  - destruct (Req_EM_T 1 1); [left; reflexivity|congruence].
Qed.

Lemma gap1 o x y : gap x y -> gap (sem1 o x) (sem1 o y).
Proof.
  intros [H|[H| ->]]; auto.
  - destruct o as [| | | | | | | | | | | |[|n]]; try (apply blank_gap, blank1; [exact H|congruence]).
    cbn. destruct x, y; cbn in *; try tauto; auto.
  - destruct y; cbn in H; try tauto; destruct o as [| | | | | | | | | | | |[|n]]; cbn; auto; try (right; left; exact I).
    destruct x; cbn; auto; left; exact I.
Qed.
Lemma gap_pow m x y x' y' : gap x x' -> gap y y' -> gap (fpow m x y) (fpow m x' y').
Proof.
  intros H K.
  assert (O1 : forall e z, gap z (fpow m (Exc e) y')) by (intros; right; left; exact I).
  destruct H as [H|[H| <-]].
  - (* no base *) destruct x; cbn in H; try tauto.
    + destruct y as [b| | | |e]; try (left; exact I). cbn [fpow]. destruct (Req_EM_T b 0) as [->|]; [|left; exact I].
      destruct K as [K|[K| <-]].
      * destruct K.
      * right; left. destruct x', y'; cbn in *; try tauto; exact I.
      * destruct (fpow_0 m x') as [->|Q]; auto.
    + left. destruct y; exact I.
    + left. exact I.
  - right; left. destruct x', y'; cbn in *; try tauto; exact I.
  - destruct K as [K|[K| <-]]; auto.
    + destruct y; cbn in K; try tauto; [|left; destruct x; exact I..].
      destruct x as [a| | | |e]; try (left; exact I).
      change (fpow m (Fin a) NaN) with (if Req_EM_T a 1 then Fin 1 else NaN). destruct (Req_EM_T a 1) as [->|]; [|left; exact I].
      destruct (fpow_1 m y') as [->|Q]; auto.
    + right; left. destruct x, y'; cbn in *; try tauto; exact I.
Qed.
Lemma open2 m o x y : o <> OPow -> o <> OPowN -> open_ x \/ open_ y -> open_ (sem2 m o x y) \/ (sem2 m o x y = NaN /\ (x = NaN \/ y = NaN)).
Proof.
  intros H1 H2 H. destruct o; try congruence; cbn [sem2];
    destruct x, y, H as [H|H]; try (exfalso; exact H); cbn; auto; try (destruct (Req_EM_T _ _); try destruct m; cbn; auto).
Qed.
Lemma gap2 m o x y x' y' : gap x x' -> gap y y' -> gap (sem2 m o x y) (sem2 m o x' y').
Proof.
  intros H K.
  assert (P : o = OPow \/ o = OPowN \/ (o <> OPow /\ o <> OPowN)) by (destruct o; auto; right; right; split; congruence).
  destruct P as [->|[->|[P1 P2]]]; [apply gap_pow; auto..|].
  destruct H as [H|[H| <-]]; [left; apply blank2; auto| |].
  - destruct (open2 m o x' y' P1 P2 (or_introl H)) as [Q|[_ [-> | ->]]]; [auto|destruct H|].
    destruct K as [K|[K| ->]]; [|destruct K|]; left; apply blank2; auto. right; exact I.
  - destruct K as [K|[K| <-]]; [left; apply blank2; auto| |auto].
    destruct (open2 m o x y' P1 P2 (or_intror K)) as [Q|[_ [-> | ->]]]; [auto| |destruct K].
    left; apply blank2; auto. left; exact I.
Qed.

(** Missing for certain. *)
Definition nanx (x : fl) : Prop := match x with NaN | Exc _ => True | _ => False end.
Lemma nanx_blank x : nanx x -> blank x.
Proof. destruct x; cbn; tauto. Qed.
Lemma nanx1 o x : nanx x -> o <> OPown 0 -> nanx (sem1 o x).
Proof. destruct x; cbn; try tauto; intros _ H; destruct o as [| | | | | | | | | | | |[|n]]; cbn; try exact I; congruence. Qed.
Lemma nanx2 m o x y : o <> OPow -> o <> OPowN -> nanx x \/ nanx y -> nanx (sem2 m o x y).
Proof.
  intros H1 H2 H. destruct o; try congruence; cbn [sem2];
    destruct x, y, H as [H|H]; try (exfalso; exact H); cbn; try exact I; try (destruct (Req_EM_T _ _); try destruct m; exact I).
Qed.

(** ** Runs. [gaps]: name by name. *)
Definition gaps (env env' : list fl) : Prop := length env = length env' /\ forall n, gap (nth n env Und) (nth n env' Und).
Lemma ev_gap m env env' : gaps env env' -> forall e, gap (ev m env e) (ev m env' e).
Proof. intros [_ H]. induction e; cbn [ev]; auto using gap1, gap2. Qed.
Lemma gaps_snoc env env' x y : gaps env env' -> gap x y -> gaps (env ++ [x]) (env' ++ [y]).
Proof.
  intros [L H] G. split; [rewrite !app_length, L; reflexivity|]. intros n. destruct (Nat.lt_ge_cases n (length env)).
  - rewrite !app_nth1 by lia. apply H.
  - rewrite !app_nth2 by lia. rewrite L. destruct (n - length env')%nat as [|[|?]]; cbn; auto.
Qed.
Lemma rets_inv xs out : rets xs = Ret out -> out = xs /\ forall x, In x xs -> no_exc x.
Proof.
  revert out. induction xs as [|x xs IH]; intros out; cbn [rets].
  - intros [= <-]. split; auto. intros ? [].
  - intros E. destruct x; cbn [bind] in E; try discriminate; (destruct (rets xs) as [o| |]; cbn in E; try discriminate;
      injection E as <-; destruct (IH o eq_refl) as [-> N]; split; auto; intros z [<-|Z]; cbn; auto).
Qed.
Lemma bind_inv' B x (k : fl -> outcome B) o : bind x k = Ret o -> k x = Ret o.
Proof. destruct x; cbn; auto; discriminate. Qed.
Lemma straight_gap m p : straight p = true -> forall env env' out out', gaps env env' -> run m p env = Ret out -> run m p env' = Ret out' ->
  gaps out out'.
Proof.
  induction p as [es|e p IH|c e1 e2 p IHp q IHq]; intros S env env' out out' G E E'; cbn [run straight] in *; [| |discriminate].
  - apply rets_inv in E as [-> _]. apply rets_inv in E' as [-> _]. split; [rewrite !map_length; reflexivity|]. intros n.
    destruct (Nat.lt_ge_cases n (length es)).
    + rewrite !(nth_indep _ Und (ev m [] (ELit 0))) by (rewrite map_length; assumption).
      rewrite (nth_indep (map (ev m env) es) _ (ev m env (ELit 0))), (nth_indep (map (ev m env') es) _ (ev m env' (ELit 0))) by (rewrite map_length; assumption).
      rewrite !map_nth. apply ev_gap; exact G.
    + rewrite !nth_overflow by (rewrite map_length; lia). auto.
  - apply bind_inv' in E, E'. eapply IH; [exact S| |exact E|exact E']. apply gaps_snoc; auto using ev_gap.
Qed.

(** ** Programs with tests *)
(** [fs]: names that do not depend on the argument; [ss]: names that are missing when it is. *)
Fixpoint fr (fs : list bool) (e : expr) : bool :=
  match e with
  | EVar n => nth n fs true
  | ELit _ => true
  | EOp1 _ e => fr fs e
  | EOp2 _ e1 e2 => fr fs e1 && fr fs e2
  end.
Fixpoint str (ss : list bool) (e : expr) : bool :=
  match e with
  | EVar n => nth n ss false
  | ELit _ => false
  | EOp1 (OPown 0) _ => false
  | EOp1 _ e => str ss e
  | EOp2 (OPow | OPowN) e1 e2 => str ss e1 && match e2 with ELit _ => true | _ => str ss e2 end
  | EOp2 _ e1 e2 => str ss e1 || str ss e2
  end.
(** The literal exponents. *)
Fixpoint lits (e : expr) : list R :=
  match e with
  | EVar _ | ELit _ => []
  | EOp1 _ e => lits e
  | EOp2 o e1 e2 => lits e1 ++ lits e2 ++ match o, e2 with OPow, ELit r | OPowN, ELit r => [r] | _, _ => [] end
  end.
Fixpoint plits (p : prog) : list R :=
  match p with
  | PRet es => flat_map lits es
  | PLet e p => lits e ++ plits p
  | PIf _ e1 e2 p q => lits e1 ++ lits e2 ++ plits p ++ plits q
  end.
Fixpoint all_str (ss : list bool) (p : prog) : bool :=
  match p with
  | PRet es => forallb (str ss) es
  | PLet e p => all_str (ss ++ [str ss e]) p
  | PIf _ e1 e2 p q => all_str ss p && all_str ss q
  end.
Fixpoint gap_ok (fs ss : list bool) (p : prog) : bool :=
  match p with
  | PRet _ => true
  | PLet e p => gap_ok (fs ++ [fr fs e]) (ss ++ [str ss e]) p
  | PIf _ e1 e2 p q => (fr fs e1 && fr fs e2 && gap_ok fs ss p && gap_ok fs ss q) || ((str ss e1 || str ss e2) && all_str ss q)
  end.
Definition ok_for (n k : nat) (p : prog) : bool := gap_ok (map (fun i => negb (Nat.eqb i k)) (seq 0 n)) (map (Nat.eqb k) (seq 0 n)) p.
Definition sound (fs ss : list bool) (env env' : list fl) : Prop :=
  gaps env env' /\ length fs = length env /\ length ss = length env /\
  (forall n, nth n fs true = true -> nth n env Und = nth n env' Und) /\ (forall n, nth n ss false = true -> nanx (nth n env Und)).
Lemma fr_ev m fs ss env env' : sound fs ss env env' -> forall e, fr fs e = true -> ev m env e = ev m env' e.
Proof.
  intros (_ & _ & _ & H & _). induction e; cbn [fr ev]; intros F; auto.
  - rewrite IHe; auto.
  - apply andb_true_iff in F as [F1 F2]. rewrite IHe1, IHe2; auto.
Qed.
Lemma str_ev m ss env : (forall n, nth n ss false = true -> nanx (nth n env Und)) ->
  forall e, Forall (fun r => r <> 0) (lits e) -> str ss e = true -> nanx (ev m env e).
Proof.
  intros H. induction e as [n|r|o e IH|o e1 IH1 e2 IH2]; cbn [str ev lits]; intros L S; auto; [discriminate| |].
  - destruct o as [| | | | | | | | | | | |[|n]]; try discriminate; apply nanx1; auto; congruence.
  - rewrite !Forall_app in L. destruct L as (L1 & L2 & L3).
    assert (P : (o = OPow \/ o = OPowN) -> forall n, nanx (fpow n (ev m env e1) (ev m env e2))).
    { intros Ho n. assert (S' : str ss e1 && match e2 with ELit _ => true | _ => str ss e2 end = true) by (destruct Ho; subst o; exact S).
      apply andb_true_iff in S' as [S1 S2]. specialize (IH1 L1 S1).
      assert (B : nanx (ev m env e2) \/ exists r, ev m env e2 = Fin r /\ r <> 0).
      { destruct e2; try (left; apply IH2; assumption). right. exists r. split; [reflexivity|]. destruct Ho; subst o; inversion L3; auto. }
      destruct (ev m env e1); cbn in IH1; try tauto.
      destruct B as [B|(r & -> & R0)].
      - destruct (ev m env e2); cbn in B; try tauto; exact I.
      - cbn. destruct (Req_EM_T r 0); [contradiction|exact I]. }
    destruct o; cbn [sem2]; try (apply P; tauto);
      (match goal with |- nanx (?f ?x ?y) => idtac end; apply orb_true_iff in S).
    + apply (nanx2 m OAdd); [congruence..|]. destruct S; auto.
    + apply (nanx2 m OSub); [congruence..|]. destruct S; auto.
    + apply (nanx2 m OMul); [congruence..|]. destruct S; auto.
    + apply (nanx2 m ODiv); [congruence..|]. destruct S; auto.
    + apply (nanx2 m ODivN); [congruence..|]. destruct S; auto.
    + apply (nanx2 m OMaximum); [congruence..|]. destruct S; auto.
Qed.
Lemma nth_snoc A (l : list A) a n d : nth n (l ++ [a]) d = if Nat.ltb n (length l) then nth n l d else if Nat.eqb n (length l) then a else d.
Proof.
  destruct (Nat.ltb_spec n (length l)); [apply app_nth1; auto|]. rewrite app_nth2 by auto.
  destruct (Nat.eqb_spec n (length l)) as [->|N]; [rewrite Nat.sub_diag; reflexivity|].
  destruct (n - length l)%nat as [|[|?]] eqn:E; [lia|reflexivity..].
Qed.
Lemma strs_snoc m ss env e : Forall (fun r => r <> 0) (lits e) -> length ss = length env -> (forall n, nth n ss false = true -> nanx (nth n env Und)) ->
  forall n, nth n (ss ++ [str ss e]) false = true -> nanx (nth n (env ++ [ev m env e]) Und).
Proof.
  intros L E H n. rewrite !nth_snoc, E. destruct (Nat.ltb n (length env)); [apply H|]. destruct (Nat.eqb n (length env)); [|discriminate].
  apply str_ev; auto.
Qed.
Lemma sound_snoc m fs ss env env' e : Forall (fun r => r <> 0) (lits e) -> sound fs ss env env' ->
  sound (fs ++ [fr fs e]) (ss ++ [str ss e]) (env ++ [ev m env e]) (env' ++ [ev m env' e]).
Proof.
  intros L S. pose proof S as (G & F & Q & Hf & Hs). repeat split.
  - rewrite !app_length. f_equal. apply G.
  - apply gaps_snoc; auto using ev_gap.
  - rewrite !app_length, F. reflexivity.
  - rewrite !app_length, Q. reflexivity.
  - intros n. rewrite !nth_snoc, F. rewrite <- (proj1 G). destruct (Nat.ltb n (length env)); [apply Hf|]. destruct (Nat.eqb n (length env)); [|auto].
    apply (fr_ev m fs ss); auto.
  - apply strs_snoc; auto.
Qed.
Lemma all_str_run m p : Forall (fun r => r <> 0) (plits p) -> forall ss env out, length ss = length env ->
  (forall n, nth n ss false = true -> nanx (nth n env Und)) -> all_str ss p = true -> run m p env = Ret out ->
  forall j, (j < length out)%nat -> nanx (nth j out Und).
Proof.
  induction p as [es|e p IH|c e1 e2 p IHp q IHq]; intros L ss env out Q H A E; cbn [plits run all_str] in *.
  - apply rets_inv in E as [-> _]. intros j J. rewrite map_length in J.
    rewrite (nth_indep _ _ (ev m env (ELit 0))) by (rewrite map_length; exact J). rewrite map_nth.
    rewrite forallb_forall in A. assert (I := nth_In es (ELit 0) J). apply (str_ev m ss); auto.
    rewrite Forall_forall in *. intros r R. apply L. apply in_flat_map. eauto.
  - apply bind_inv' in E. apply Forall_app in L as [L1 L2]. apply (IH L2 _ _ _) with (3 := A) (4 := E).
    + rewrite !app_length, Q. reflexivity.
    + apply strs_snoc; auto.
  - apply andb_true_iff in A as [A1 A2]. rewrite !Forall_app in L. destruct L as (_ & _ & L1 & L2).
    destruct (semc c _ _) as [[|]|]; [eapply IHp; eauto|eapply IHq; eauto|discriminate].
Qed.
Lemma nanx_test c x y b : nanx x \/ nanx y -> semc c x y = Some b -> b = false.
Proof.
  intros H. assert (X : forall p, fcmp p x y = Some b -> b = false).
  { intros p. destruct x, y, H as [H|H]; try (exfalso; exact H); cbn; congruence. }
  destruct c; apply X.
Qed.
Lemma gap_ok_run m p : Forall (fun r => r <> 0) (plits p) -> forall fs ss env env' out out', sound fs ss env env' -> gap_ok fs ss p = true ->
  run m p env = Ret out -> run m p env' = Ret out' -> forall j, (j < length out)%nat -> gap (nth j out Und) (nth j out' Und).
Proof.
  induction p as [es|e p IH|c e1 e2 p IHp q IHq]; intros L fs ss env env' out out' S A E E'; cbn [plits gap_ok] in *.
  - intros j _. assert (G := straight_gap m (PRet es) eq_refl env env' out out' (proj1 S) E E'). apply G.
  - cbn [run] in *. apply bind_inv' in E, E'. apply Forall_app in L as [L1 L2]. eapply (IH L2); [|exact A|exact E|exact E'].
    apply sound_snoc; auto.
  - cbn [run] in *. rewrite !Forall_app in L. destruct L as (Le1 & Le2 & L1 & L2). apply orb_true_iff in A as [A|A].
    + rewrite !andb_true_iff in A. destruct A as [[[F1 F2] A1] A2].
      rewrite <- (fr_ev m _ _ _ _ S e1 F1), <- (fr_ev m _ _ _ _ S e2 F2) in E'.
      destruct (semc c _ _) as [[|]|]; [eapply IHp; eauto|eapply IHq; eauto|discriminate].
    + apply andb_true_iff in A as [A1 A2]. destruct S as (G & F & Q & Hf & Hs).
      destruct (semc c _ _) as [b|] eqn:T; [|discriminate].
      assert (b = false). { eapply nanx_test; [|exact T]. apply orb_true_iff in A1 as [A1|A1]; [left|right]; eapply str_ev; eauto. }
      subst b. intros j J. left. apply nanx_blank. eapply (all_str_run m q); eauto.
Qed.

(** ** One argument missing *)
Lemma fill_nth k x env n : (k < length env)%nat -> nth n (fill k x env) Und = if Nat.eqb n k then x else nth n env Und.
Proof.
  intros K. unfold fill. destruct (Nat.eqb_spec n k) as [->|N].
  - rewrite app_nth2 by (rewrite firstn_length; lia). rewrite firstn_length, Nat.min_l, Nat.sub_diag by lia. reflexivity.
  - destruct (Nat.lt_ge_cases n k).
    + rewrite app_nth1 by (rewrite firstn_length; lia). rewrite <- (firstn_skipn k env) at 2. rewrite app_nth1 by (rewrite firstn_length; lia). reflexivity.
    + rewrite app_nth2 by (rewrite firstn_length; lia). rewrite firstn_length, Nat.min_l by lia.
      destruct (n - k)%nat as [|d] eqn:E; [lia|]. cbn [nth]. rewrite <- (firstn_skipn (S k) env) at 2.
      rewrite app_nth2 by (rewrite firstn_length; lia). f_equal. rewrite firstn_length. lia.
Qed.
Lemma fill_length k x env : (k < length env)%nat -> length (fill k x env) = length env.
Proof. intros. unfold fill. rewrite app_length, firstn_length. cbn [length]. rewrite skipn_length. lia. Qed.
Lemma fill_gaps k x env : (k < length env)%nat -> nth k env Und = NaN -> gaps env (fill k x env).
Proof.
  intros K N. split; [symmetry; apply fill_length; auto|]. intros n. rewrite fill_nth by auto.
  destruct (Nat.eqb_spec n k) as [->|]; [rewrite N; left; exact I|auto].
Qed.
Lemma nth_map_seq A (f : nat -> A) len n d : nth n (map f (seq 0 len)) d = if Nat.ltb n len then f n else d.
Proof.
  destruct (Nat.ltb_spec n len).
  - rewrite (nth_indep _ d (f 0%nat)) by (rewrite map_length, seq_length; auto). rewrite map_nth, seq_nth by auto. reflexivity.
  - apply nth_overflow. rewrite map_length, seq_length. auto.
Qed.
Lemma fill_sound k x env : (k < length env)%nat -> nth k env Und = NaN ->
  sound (map (fun i => negb (Nat.eqb i k)) (seq 0 (length env))) (map (Nat.eqb k) (seq 0 (length env))) env (fill k x env).
Proof.
  intros K N. repeat split.
  - symmetry; apply fill_length; auto.
  - apply fill_gaps; auto.
  - rewrite map_length, seq_length. reflexivity.
  - rewrite map_length, seq_length. reflexivity.
  - intros n. rewrite nth_map_seq, fill_nth by auto. destruct (Nat.ltb_spec n (length env)); destruct (Nat.eqb_spec n k); cbn [negb];
      intros; solve [discriminate | reflexivity | subst; lia].
  - intros n. rewrite nth_map_seq. destruct (Nat.ltb_spec n (length env)); [|discriminate]. intros E. apply Nat.eqb_eq in E. subst n. rewrite N. exact I.
Qed.
Lemma in_nth_no_exc out : (forall x, In x out -> no_exc x) -> forall j, no_exc (nth j out Und).
Proof. intros H j. destruct (nth_in_or_default j out Und) as [I|E]; [auto|rewrite E; exact I]. Qed.
Lemma run_no_exc m p : forall env out, run m p env = Ret out -> forall x, In x out -> no_exc x.
Proof.
  induction p as [es|e p IH|c e1 e2 p IHp q IHq]; cbn [run]; intros env out E.
  - apply rets_inv in E as [-> H]. exact H.
  - apply bind_inv' in E. eauto.
  - destruct (semc c _ _) as [[|]|]; try discriminate; eauto.
Qed.
Lemma gap_end x y : no_exc x -> no_exc y -> gap x y -> x = NaN \/ x = Und \/ y = x \/ y = Und.
Proof. intros X Y [H|[H|H]]; [destruct x|destruct y|]; cbn in *; try tauto; auto. Qed.
Lemma shows m n p : (forall env k x out out', length env = n -> (k < n)%nat -> nth k env Und = NaN -> run m p env = Ret out ->
    run m p (fill k x env) = Ret out' -> forall j, (j < length out)%nat -> gap (nth j out Und) (nth j out' Und)) -> gap_shows m n p.
Proof.
  intros H env k out L _ K N E j J.
  destruct (nth j out Und) eqn:O; auto; right; right; intros x out' _ E';
    destruct (gap_end (nth j out Und) (nth j out' Und)) as [Q|[Q|[Q|Q]]]; try congruence; eauto;
    try (apply in_nth_no_exc; eapply run_no_exc; eauto); try (left; congruence).
Qed.
Lemma straight_shows m n p : straight p = true -> gap_shows m n p.
Proof.
  intros S. apply shows. intros env k x out out' L K N E E' j _. subst n.
  exact (proj2 (straight_gap m p S env _ out out' (fill_gaps k x env K N) E E') j).
Qed.
Lemma ok_shows m n p : Forall (fun r => r <> 0) (plits p) -> forallb (fun k => ok_for n k p) (seq 0 n) = true -> gap_shows m n p.
Proof.
  intros L A. apply shows. intros env k x out out' Ln K N E E' j J. subst n. rewrite forallb_forall in A.
  assert (Q : ok_for (length env) k p = true) by (apply A, in_seq; lia).
  exact (gap_ok_run m p L _ _ env _ out out' (fill_sound k x env K N) Q E E' j J).
Qed.
