(** * L_Int: integers give the same results as the equal floats, if they do not leave 64 bits. *)
From Verif Require Import Fl M_Array M_Int Spec24.
Open Scope fl_scope.

Lemma to_of v : to_float (of_val v) = v.
Proof. destruct v; reflexivity. Qed.
Lemma of_out_float (o : outcome val) : call (of_out o) (fun v => Ret (to_float v)) = o.
Proof. unfold of_out. destruct o; cbn [call]; rewrite ?to_of; reflexivity. Qed.
Lemma of_out_ret o v : of_out o = Ret v -> o = Ret (to_float v) /\ is_float v.
Proof. unfold of_out. destruct o as [x|e|]; cbn [call]; intros [= <-]. rewrite to_of. split; [reflexivity|destruct x; exact I]. Qed.
Lemma wrap64_id z : (Z.abs z < 2 ^ 63)%Z -> wrap64 z = z.
Proof. intros H. unfold wrap64. rewrite Z.mod_small; lia. Qed.
Lemma in64_abs z : (Z.abs z < 2 ^ 63)%Z -> in64 z = true.
Proof. intros H. unfold in64. apply andb_true_intro. split; [apply Z.leb_le|apply Z.ltb_lt]; lia. Qed.
Lemma IZR_pow z n : IZR (z ^ Z.of_nat n) = (IZR z ^ n)%R.
Proof. symmetry. apply pow_IZR. Qed.
Lemma IZR_max a b : IZR (Z.max a b) = Rmax (IZR a) (IZR b).
Proof.
  unfold Rmax. destruct (Rle_dec (IZR a) (IZR b)) as [H|H].
  - apply le_IZR in H. f_equal. lia.
  - f_equal. destruct (Z.le_gt_cases a b) as [L|L]; [|lia]. apply IZR_le in L. contradiction.
Qed.
Lemma fpow_int m a b : (0 <= b)%Z -> fpow m (z2f a) (z2f b) = z2f (a ^ b).
Proof.
  intros Hb. unfold z2f. assert (E : IZR (a ^ b) = powerRZ (IZR a) b).
  { rewrite <- (Z2Nat.id b) by lia. rewrite IZR_pow, <- pow_powerRZ. reflexivity. }
  rewrite E. cbn [fpow].
  destruct (Rlt_dec 0 (IZR a)) as [P|P]; [f_equal; symmetry; apply powerRZ_Rpower; auto|].
  destruct (Req_EM_T (IZR a) 0) as [Z0|Z0].
  - rewrite Z0. destruct b as [|p|p]; try lia.
    + destruct (Req_EM_T 0 0); [reflexivity|lra].
    + destruct (Req_EM_T (IZR (Z.pos p)) 0) as [H|H]; [apply eq_IZR in H; lia|].
      destruct (Rlt_dec 0 (IZR (Z.pos p))) as [H1|H1]; [|exfalso; apply H1; apply IZR_lt; lia].
      cbn [powerRZ]. rewrite pow_i by lia. reflexivity.
  - rewrite Int_part_IZR. destruct (Req_EM_T (IZR b) (IZR b)); [reflexivity|contradiction].
Qed.

(** ** Python integers of any size. *)
Definition py (v : ival) : Prop := match v with AI _ => False | _ => True end.
Lemma float_py v : is_float v -> py v.
Proof. destruct v; simpl; auto. Qed.
(** [r] is the outcome [s] with a value for which P holds. *)
Definition gives (P : ival -> Prop) (r : outcome ival) (s : outcome val) : Prop :=
  match r with Ret v => s = Ret (to_float v) /\ P v | Raise e => s = Raise e | Unknown => s = Unknown end.
Lemma gives_floats (P : ival -> Prop) o : (forall v, is_float v -> P v) -> gives P (of_out o) o.
Proof.
  intros H. destruct (of_out o) as [v|e|] eqn:E; simpl.
  - apply of_out_ret in E as [-> F]. auto.
  - unfold of_out in E. destruct o; cbn [call] in E; congruence.
  - unfold of_out in E. destruct o; cbn [call] in E; congruence.
Qed.
Section Py.
Variable m : mode.
Lemma py_app1 o v : py v -> gives py (iapp1 o v) (app1 o (to_float v)).
Proof.
  intros H. destruct v as [z|x|l|l]; try contradiction; destruct o; cbn [iapp1]; try (apply gives_floats; apply float_py).
  - cbn [gives app1 to_float sem1]. unfold z2f. rewrite opp_IZR. split; [reflexivity|exact I].
  - cbn [gives app1 to_float sem1]. unfold z2f. rewrite IZR_pow. split; [reflexivity|exact I].
Qed.
Lemma py_app2 o v w : py v -> py w -> gives py (iapp2 m o v w) (app2 m o (to_float v) (to_float w)).
Proof.
  intros H1 H2. unfold iapp2. destruct v as [x|x|l|l], w as [y|y|l'|l']; try contradiction; cbn [is_int andb];
    try (apply gives_floats; apply float_py).
  destruct o; cbn [zop]; try (apply gives_floats; apply float_py).
  - cbn [gives app2 to_float sem2]. unfold z2f. rewrite plus_IZR. split; [reflexivity|exact I].
  - cbn [gives app2 to_float sem2]. unfold z2f. rewrite minus_IZR. split; [reflexivity|exact I].
  - cbn [gives app2 to_float sem2]. unfold z2f. rewrite mult_IZR. split; [reflexivity|exact I].
  - destruct (y <? 0)%Z eqn:E; [apply gives_floats; apply float_py|]. apply Z.ltb_ge in E. cbn [gives app2 to_float sem2].
    rewrite fpow_int by exact E. cbn. auto.
  - destruct (y <? 0)%Z eqn:E; [apply gives_floats; apply float_py|]. apply Z.ltb_ge in E. cbn [gives app2 to_float sem2].
    rewrite fpow_int by exact E. cbn. auto.
Qed.
Lemma gives_call P Q r s f g : gives P r s -> (forall v, P v -> gives Q (f v) (g (to_float v))) -> gives Q (call r f) (call s g).
Proof. intros H K. destruct r as [v|e|]; simpl in H; [destruct H as [-> H]; cbn [call]; auto|subst s; reflexivity..]. Qed.
Lemma nth_to_float n env : nth n (map to_float env) (VS Und) = to_float (nth n env (NF Und)).
Proof. change (VS Und) with (to_float (NF Und)). apply map_nth. Qed.
Lemma py_ev env e : python_numbers env -> gives py (iev m env e) (ev_arr m (map to_float env) (erase e)).
Proof.
  intros H. induction e as [n|r|z|o e IH|o e1 IH1 e2 IH2|e IH]; cbn [iev erase ev_arr].
  - rewrite nth_to_float. cbn [gives]. split; [reflexivity|].
    destruct (nth_in_or_default n env (NF Und)) as [L|L]; [apply H; exact L|rewrite L; exact I].
  - cbn. auto.
  - cbn. auto.
  - eapply gives_call; [exact IH|]. intros v Hv. apply py_app1. exact Hv.
  - eapply gives_call; [exact IH1|]. intros v Hv. eapply gives_call; [exact IH2|]. intros w Hw. apply py_app2; auto.
  - cbn [call]. eapply gives_call; [exact IH|]. intros v Hv. destruct v; try contradiction; apply gives_floats; apply float_py.
Qed.
Definition give (P : list ival -> Prop) (r : outcome (list ival)) (s : outcome (list val)) : Prop :=
  match r with Ret v => s = Ret (map to_float v) /\ P v | Raise e => s = Raise e | Unknown => s = Unknown end.
Lemma give_as_floats P r s : give P r s -> as_floats r = s.
Proof. unfold as_floats. destruct r; cbn; [intros [-> _]; reflexivity|auto..]. Qed.
Lemma gives_call' P r s Q f g : gives P r s -> (forall v, P v -> give Q (f v) (g (to_float v))) -> give Q (call r f) (call s g).
Proof. intros H K. destruct r as [v|e|]; simpl in H; [destruct H as [-> H]; cbn [call]; auto|subst s; reflexivity..]. Qed.
Lemma py_evs env es : python_numbers env -> give python_numbers (ievs m env es) (ev_arrs m (map to_float env) (map erase es)).
Proof.
  intros H. induction es as [|e es IH]; cbn [ievs map ev_arrs].
  - split; [reflexivity|]. intros v [].
  - eapply gives_call'; [apply py_ev; exact H|]. intros v Hv. destruct (ievs m env es) as [vs|x|]; cbn [give] in IH; cbn [call].
    + destruct IH as [-> K]. cbn [call give]. split; [reflexivity|]. intros w [<-|Hw]; auto. apply K. exact Hw.
    + rewrite IH. reflexivity.
    + rewrite IH. reflexivity.
Qed.
Lemma py_run p : forall env, python_numbers env -> give python_numbers (irun m p env) (run_arr m (erasep p) (map to_float env)).
Proof.
  induction p as [es|e p IH|c e1 e2 p IHp q IHq]; intros env H; cbn [irun erasep run_arr].
  - apply py_evs. exact H.
  - eapply gives_call'; [apply py_ev; exact H|]. intros v Hv. change [to_float v] with (map to_float [v]). rewrite <- map_app. apply IH.
    intros w Hw. apply in_app_or in Hw as [Hw|[<-|[]]]; [apply H; exact Hw|exact Hv].
  - eapply gives_call'; [apply py_ev; exact H|]. intros v Hv. eapply gives_call'; [apply py_ev; exact H|]. intros w Hw.
    destruct (truth c (to_float v) (to_float w)) as [[|]|x|]; cbn [call]; try reflexivity; auto.
Qed.
End Py.

(** ** Bounds on the integers of a run. *)
Inductive abs := BF | BI (b : Z).
Definition lim (b : Z) : option abs := if (b <? 2 ^ 63)%Z then Some (BI b) else None.
Definition abs2 (o : op2) (a b : abs) : option abs :=
  match a, b with
  | BI x, BI y =>
      match o with
      | OAdd | OSub => lim (x + y) | OMul => lim (x * y) | OMaximum => lim (Z.max x y) | OPow | OPowN => None
      | ODiv | ODivN => Some BF
      end
  | _, _ => Some BF
  end.
Definition abs1 (o : op1) (a : abs) : option abs :=
  match a, o with
  | BI x, ONeg => lim x
  | BI x, OPown n => lim (Z.max 1 (x ^ Z.of_nat n))
  | _, _ => Some BF
  end.
Fixpoint aval (bs : list abs) (e : iexpr) : option abs :=
  match e with
  | IVar n => match nth n bs BF with BF => Some BF | BI b => lim b end
  | IFlt _ => Some BF
  | IInt z => lim (Z.abs z)
  | IOp1 o e => match aval bs e with Some a => abs1 o a | None => None end
  | IOp2 o e1 e2 => match aval bs e1, aval bs e2 with Some a, Some b => abs2 o a b | _, _ => None end
  | IRecip e => match aval bs e with Some BF => Some BF | _ => None end
  end.
Fixpoint avals (bs : list abs) (es : list iexpr) : bool :=
  match es with [] => true | e :: es => match aval bs e with Some _ => avals bs es | None => false end end.
Fixpoint fits (p : iprog) (bs : list abs) : bool :=
  match p with
  | IRet es => avals bs es
  | ILet e p => match aval bs e with Some a => fits p (bs ++ [a]) | None => false end
  | IIf _ e1 e2 p q => match aval bs e1, aval bs e2 with Some _, Some _ => fits p bs && fits q bs | _, _ => false end
  end.

Definition vok (a : abs) (v : ival) : Prop := match a with BF => is_float v | BI b => within b v end.
Lemma lim_inv b a : lim b = Some a -> a = BI b /\ (b < 2 ^ 63)%Z.
Proof. unfold lim. destruct (b <? 2 ^ 63)%Z eqn:E; [|discriminate]. apply Z.ltb_lt in E. intros [= <-]. auto. Qed.
Lemma float_within b v : is_float v -> within b v.
Proof. destruct v; simpl; tauto. Qed.
Lemma float_vok a v : is_float v -> vok a v.
Proof. destruct a; simpl; [auto|apply float_within]. Qed.

Lemma map_wrap_z2f (f : Z -> Z) (g : fl -> fl) b (l : list Z) : (b < 2 ^ 63)%Z ->
  (forall z, In z l -> (Z.abs (f z) <= b)%Z) -> (forall z, g (z2f z) = z2f (f z)) ->
  VA (map g (map z2f l)) = VA (map z2f (map (fun z => wrap64 (f z)) l)).
Proof.
  intros Hb Hf Hg. f_equal. rewrite !map_map. apply map_ext_in. intros z Hz. rewrite Hg, wrap64_id; [reflexivity|]. specialize (Hf z Hz). lia.
Qed.
Lemma zbroadcast_ok (f : Z -> Z -> Z) (g : fl -> fl -> fl) b a c :
  (forall x y, g (z2f x) (z2f y) = z2f (f x y)) ->
  (forall x y, In x a -> In y c -> (Z.abs (f x y) <= b)%Z) ->
  match zbroadcast f a c with
  | Ret l => broadcast g (map z2f a) (map z2f c) = Ret (map z2f l) /\ forall z, In z l -> (Z.abs z <= b)%Z
  | Raise e => broadcast g (map z2f a) (map z2f c) = Raise e
  | Unknown => False
  end.
Proof.
  intros Hg Hb. unfold zbroadcast, broadcast. rewrite !map_length.
  destruct (Nat.eqb (length a) (length c)) eqn:L.
  - clear L. split.
    + f_equal. clear Hb. revert c. induction a as [|x a IH]; intros [|y c]; cbn [zmap2 map map2]; try reflexivity. rewrite Hg, IH. reflexivity.
    + revert c Hb. induction a as [|x a IH]; intros [|y c] Hb z Hz; cbn [zmap2] in Hz; try destruct Hz.
      * subst z. apply Hb; left; reflexivity.
      * eapply IH; [|eassumption]. intros u v Hu Hv. apply Hb; right; auto.
  - assert (L1 : forall x, map (g (z2f x)) (map z2f c) = map z2f (map (f x) c)) by (intros; rewrite !map_map; apply map_ext; auto).
    assert (L2 : forall y, map (fun x => g x (z2f y)) (map z2f a) = map z2f (map (fun x => f x y) a)) by (intros; rewrite !map_map; apply map_ext; auto).
    assert (B1 : forall x, In x a -> forall z, In z (map (f x) c) -> (Z.abs z <= b)%Z).
    { intros x Hx z Hz. apply in_map_iff in Hz as (y & <- & Hy). auto. }
    assert (B2 : forall y, In y c -> forall z, In z (map (fun x => f x y) a) -> (Z.abs z <= b)%Z).
    { intros y Hy z Hz. apply in_map_iff in Hz as (x & <- & Hx). auto. }
    destruct a as [|x [|x' a]], c as [|y [|y' c]]; try discriminate; cbn [map] in *; try reflexivity;
      first [split; [exact (f_equal (@Ret _) (L1 x))|exact (B1 x (or_introl eq_refl))]
            |split; [exact (f_equal (@Ret _) (L2 y))|exact (B2 y (or_introl eq_refl))]].
Qed.
Section Run.
Variable m : mode.
Lemma zarr_ok o f b x y v w : (b < 2 ^ 63)%Z -> is_int v = true -> is_int w = true -> (match v, w with NI _, NI _ => False | _, _ => True end) ->
  within x v -> within y w -> (x < 2 ^ 63)%Z -> (y < 2 ^ 63)%Z ->
  (forall c d, sem2 NumPy o (z2f c) (z2f d) = z2f (f c d)) ->
  (forall c d, (Z.abs c <= x)%Z -> (Z.abs d <= y)%Z -> (Z.abs (f c d) <= b)%Z) ->
  gives (vok (BI b)) (zarr f v w) (app2 m o (to_float v) (to_float w)).
Proof.
  intros Hb I1 I2 N W1 W2 X Y Hs Hf. destruct v as [c|?|c|?], w as [d|?|d|?]; try discriminate; try contradiction; cbn [zarr to_float app2]; simpl in W1, W2.
  - rewrite in64_abs by lia. cbn [gives]. split.
    + f_equal. apply (map_wrap_z2f (f c) (sem2 NumPy o (z2f c)) b); auto.
    + intros z Hz. apply in_map_iff in Hz as (u & <- & Hu). specialize (Hf c u W1 (W2 u Hu)). rewrite wrap64_id by lia. exact Hf.
  - rewrite in64_abs by lia. cbn [gives]. split.
    + f_equal. apply (map_wrap_z2f (fun u => f u d) (fun u => sem2 NumPy o u (z2f d)) b); auto.
    + intros z Hz. apply in_map_iff in Hz as (u & <- & Hu). specialize (Hf u d (W1 u Hu) W2). rewrite wrap64_id by lia. exact Hf.
  - pose proof (zbroadcast_ok f (sem2 NumPy o) b c d Hs ltac:(intros; apply Hf; auto)) as B.
    destruct (zbroadcast f c d) as [l|e|]; cbn [call]; [|rewrite B; reflexivity|contradiction].
    destruct B as [-> B]. cbn [call gives to_float vok within].
    assert (E : map wrap64 l = l). { transitivity (map (fun z : Z => z) l); [|apply map_id]. apply map_ext_in. intros z Hz. apply wrap64_id. specialize (B z Hz). lia. }
    rewrite E. auto.
Qed.
Lemma abs_pow z b n : (Z.abs z <= b)%Z -> (Z.abs (z ^ Z.of_nat n) <= Z.max 1 (b ^ Z.of_nat n))%Z.
Proof.
  intros H. rewrite Z.abs_pow. assert (Z.abs z ^ Z.of_nat n <= b ^ Z.of_nat n)%Z by (apply Z.pow_le_mono_l; lia). lia.
Qed.
Lemma ok_app1 o a a' v : abs1 o a = Some a' -> vok a v -> gives (vok a') (iapp1 o v) (app1 o (to_float v)).
Proof.
  intros E H. assert (F : is_float v -> gives (vok a') (iapp1 o v) (app1 o (to_float v))).
  { intros Fv. assert (Q : iapp1 o v = of_out (app1 o (to_float v))) by (destruct v; try contradiction; destruct o; reflexivity).
    rewrite Q. apply gives_floats. apply float_vok. }
  destruct a as [|b]; [apply F; exact H|]. simpl in H.
  destruct v as [z|x|l|l]; try (apply F; exact I); destruct o; cbn [abs1] in E; cbn [iapp1]; try (apply gives_floats; apply float_vok).
  - apply lim_inv in E as [-> L]. cbn [gives app1 to_float sem1]. unfold z2f. rewrite opp_IZR. split; [reflexivity|]. simpl in *. lia.
  - apply lim_inv in E as [-> L]. cbn [gives app1 to_float sem1]. unfold z2f. rewrite IZR_pow. split; [reflexivity|]. apply abs_pow. exact H.
  - apply lim_inv in E as [-> L]. cbn [gives app1 to_float sem1]. split.
    + f_equal. apply (map_wrap_z2f Z.opp fneg b); auto; [intros z Hz; specialize (H z Hz); lia|].
      intros z. unfold z2f. rewrite opp_IZR. reflexivity.
    + intros z Hz. apply in_map_iff in Hz as (u & <- & Hu). specialize (H u Hu). rewrite wrap64_id by lia. lia.
  - apply lim_inv in E as [-> L]. cbn [gives app1 to_float sem1]. split.
    + f_equal. apply (map_wrap_z2f (fun z => z ^ Z.of_nat n)%Z (fun x => x ^^ n) (Z.max 1 (b ^ Z.of_nat n))); auto;
        [intros z Hz; apply abs_pow; auto|].
      intros z. unfold z2f. rewrite IZR_pow. reflexivity.
    + intros z Hz. apply in_map_iff in Hz as (u & <- & Hu). pose proof (abs_pow u b n (H u Hu)). rewrite wrap64_id by lia. exact H0.
Qed.
Lemma ok_app2 o a b c v w : abs2 o a b = Some c -> vok a v -> vok b w ->
  (match a with BI x => x < 2 ^ 63 | _ => True end)%Z -> (match b with BI x => x < 2 ^ 63 | _ => True end)%Z ->
  gives (vok c) (iapp2 m o v w) (app2 m o (to_float v) (to_float w)).
Proof.
  intros E Hv Hw La Lb. destruct (is_int v && is_int w) eqn:B.
  2:{ unfold iapp2. rewrite B. apply gives_floats. apply float_vok. }
  apply andb_prop in B as [B1 B2].
  destruct a as [|x]; [destruct v; discriminate || contradiction|]. destruct b as [|y]; [destruct w; discriminate || contradiction|].
  simpl in Hv, Hw. cbn [abs2] in E.
  assert (K : forall f d, (d < 2 ^ 63)%Z -> c = BI d -> (forall c d, sem2 NumPy o (z2f c) (z2f d) = z2f (f c d)) ->
     (forall c d, sem2 m o (z2f c) (z2f d) = z2f (f c d)) ->
     (forall c e, (Z.abs c <= x)%Z -> (Z.abs e <= y)%Z -> (Z.abs (f c e) <= d)%Z) ->
     gives (vok c) match v, w with NI x, NI y => Ret (NI (f x y)) | _, _ => zarr f v w end (app2 m o (to_float v) (to_float w))).
  { intros f d Hd -> S1 S2 Hf.
    assert (A : (match v, w with NI _, NI _ => False | _, _ => True end) -> gives (vok (BI d)) (zarr f v w) (app2 m o (to_float v) (to_float w))).
    { intros N. eapply zarr_ok; eauto. }
    destruct v as [u|?|u|?], w as [t|?|t|?]; try discriminate; try (apply A; exact I).
    cbn [gives app2 to_float]. rewrite S2. cbn [num z2f]. split; [reflexivity|]. cbn [vok within]. apply Hf; auto. }
  unfold iapp2. rewrite B1, B2. cbn [andb].
  destruct o; cbn [zop]; try discriminate E; try (injection E as <-; apply gives_floats; apply float_vok).
  - apply lim_inv in E as [-> L]. apply (K Z.add (x + y)%Z); auto; intros; cbn; unfold z2f; rewrite ?plus_IZR; try reflexivity; lia.
  - apply lim_inv in E as [-> L]. apply (K Z.sub (x + y)%Z); auto; intros; cbn; unfold z2f; rewrite ?minus_IZR; try reflexivity; lia.
  - apply lim_inv in E as [-> L]. apply (K Z.mul (x * y)%Z); auto; try (intros; cbn; unfold z2f; rewrite mult_IZR; reflexivity).
    intros p q P Q. rewrite Z.abs_mul. apply Z.mul_le_mono_nonneg; lia.
  - apply lim_inv in E as [-> L].
    destruct v as [u|?|u|?], w as [t|?|t|?]; try discriminate; try (apply gives_floats; apply float_vok);
      (apply (zarr_ok OMaximum _ _ x y); auto; [intros; cbn; unfold z2f; rewrite IZR_max; reflexivity|intros; lia]).
Qed.
(** The names assigned so far have values within their bounds, floats where they must be. *)
Definition eok (fs : list bool) (bs : list abs) (env : list ival) : Prop :=
  length fs = length env /\ forall n, vok (nth n bs BF) (nth n env (NF Und)) /\ (nth n fs false = true -> is_float (nth n env (NF Und))).
Definition evok (fs : list bool) (e : iexpr) (a : abs) (v : ival) : Prop := vok a v /\ (floaty fs e = true -> is_float v).
Lemma gives_weaken (P Q : ival -> Prop) r s : gives P r s -> (forall v, P v -> Q v) -> gives Q r s.
Proof. intros H K. destruct r; simpl in *; auto. destruct H; auto. Qed.
Lemma aval_small bs e a : aval bs e = Some a -> match a with BI x => (x < 2 ^ 63)%Z | _ => True end.
Proof.
  assert (L : forall b a, lim b = Some a -> match a with BI x => (x < 2 ^ 63)%Z | _ => True end) by (intros b c H; apply lim_inv in H as [-> H]; exact H).
  destruct e as [n|r|z|o e|o e1 e2|e]; cbn [aval]; intros E.
  - destruct (nth n bs BF); [injection E as <-; exact I|exact (L _ _ E)].
  - injection E as <-; exact I.
  - exact (L _ _ E).
  - destruct (aval bs e) as [[|x]|]; try discriminate; cbn [abs1] in E; destruct o; first [exact (L _ _ E)|injection E as <-; exact I].
  - destruct (aval bs e1) as [[|x]|], (aval bs e2) as [[|y]|]; try discriminate; cbn [abs2] in E; try (injection E as <-; exact I).
    destruct o; first [discriminate E|exact (L _ _ E)|injection E as <-; exact I].
  - destruct (aval bs e) as [[|x]|]; try discriminate. injection E as <-; exact I.
Qed.
Lemma iapp1_float o v w : iapp1 o v = Ret w -> (match o with ONeg | OPown _ => false | _ => true end = true \/ is_float v) -> is_float w.
Proof.
  intros E H. assert (Q : of_out (app1 o (to_float v)) = Ret w).
  { destruct H as [H|H]; [destruct v, o; try discriminate H; exact E|destruct v; try contradiction; destruct o; exact E]. }
  apply of_out_ret in Q. tauto.
Qed.
Lemma iapp2_float o v w x : iapp2 m o v w = Ret x -> (match o with ODiv | ODivN => true | _ => false end = true \/ is_float v \/ is_float w) -> is_float x.
Proof.
  intros E H. assert (Q : of_out (app2 m o (to_float v) (to_float w)) = Ret x).
  { unfold iapp2 in E. destruct (is_int v && is_int w) eqn:B; [|exact E]. apply andb_prop in B as [B1 B2].
    destruct H as [H|[H|H]]; [destruct o; try discriminate H; exact E|destruct v; try contradiction; discriminate|destruct w; try contradiction; discriminate]. }
  apply of_out_ret in Q. tauto.
Qed.
Lemma gives_and (P Q : ival -> Prop) r s : gives P r s -> (forall v, r = Ret v -> Q v) -> gives (fun v => P v /\ Q v) r s.
Proof. intros H K. destruct r; simpl in *; auto. destruct H; auto. Qed.
Lemma ok_ev fs bs env : eok fs bs env -> forall e e' a, written fs e' e -> aval bs e = Some a ->
  gives (evok fs e a) (iev m env e') (ev_arr m (map to_float env) (erase e)).
Proof.
  intros [Hl Hn]. induction e as [n|r|z|o e IH|o e1 IH1 e2 IH2|e IH]; intros e' a W A; cbn [erase ev_arr]; cbn [aval] in A.
  - destruct e'; cbn [written] in W; try contradiction. subst n0. cbn [iev gives]. rewrite nth_to_float. split; [reflexivity|].
    destruct (Hn n) as [V F]. split; [|exact F]. destruct (nth n bs BF); [injection A as <-; exact V|apply lim_inv in A as [-> _]; exact V].
  - destruct e'; cbn [written] in W; try contradiction. subst r0. injection A as <-. cbn. repeat split.
  - apply lim_inv in A as [-> L]. destruct e'; cbn [written] in W; try contradiction; subst; (split; [reflexivity|]); split; cbn [vok within floaty];
      try discriminate; [exact I|apply Z.le_refl].
  - destruct e'; cbn [written] in W; try contradiction. destruct W as [-> W]. cbn [iev].
    destruct (aval bs e) as [b|] eqn:Ab; try discriminate.
    eapply gives_call; [apply (IH _ _ W eq_refl)|]. intros v [V F].
    apply gives_and; [apply (ok_app1 o b); auto|]. intros w E G. cbn [floaty] in G. eapply iapp1_float; [exact E|].
    destruct o; try (left; reflexivity); right; apply F; exact G.
  - destruct (aval bs e1) as [a1|] eqn:A1; try discriminate. destruct (aval bs e2) as [a2|] eqn:A2; try discriminate.
    destruct e'; cbn [written] in W; try contradiction.
    + destruct W as (-> & W1 & W2). cbn [iev].
      eapply gives_call; [apply (IH1 _ _ W1 eq_refl)|]. intros v [V F].
      eapply gives_call; [apply (IH2 _ _ W2 eq_refl)|]. intros w [V' F'].
      apply gives_and; [apply (ok_app2 o a1 a2); auto; [exact (aval_small _ _ _ A1)|exact (aval_small _ _ _ A2)]|]. intros x E G. cbn [floaty] in G. eapply iapp2_float; [exact E|].
      destruct o; try (left; reflexivity); right; apply orb_prop in G as [G|G]; auto.
    + destruct W as (-> & -> & G & W). cbn [iev erase ev_arr call].
      pose proof (IH2 _ _ W eq_refl) as H. eapply gives_call; [exact H|]. intros v [V F]. specialize (F G).
      assert (Q : irecip m v = of_out (app2 m ODiv (VS #1) (to_float v))) by (destruct v; try contradiction; reflexivity).
      rewrite Q. apply (gives_weaken is_float); [apply gives_floats; auto|]. intros x Fx. split; [apply float_vok; exact Fx|auto].
  - destruct (aval bs e) as [[|b]|] eqn:Ab; try discriminate. injection A as <-.
    destruct e'; cbn [written] in W; try contradiction. cbn [iev call].
    eapply gives_call; [apply (IH _ _ W eq_refl)|]. intros v [V F]. simpl in V.
    assert (Q : irecip m v = of_out (app2 m ODiv (VS #1) (to_float v))) by (destruct v; try contradiction; reflexivity).
    rewrite Q. apply (gives_weaken is_float); [apply gives_floats; auto|]. intros x Fx. split; auto.
Qed.
Lemma ok_evs fs bs env : eok fs bs env -> forall es es', writtens fs es' es -> avals bs es = true ->
  give (fun _ => True) (ievs m env es') (ev_arrs m (map to_float env) (map erase es)).
Proof.
  intros H. induction es as [|e es IH]; intros [|e' es'] W A; cbn [writtens] in W; try contradiction; cbn [ievs map ev_arrs].
  - split; auto.
  - destruct W as [W1 W2]. cbn [avals] in A. destruct (aval bs e) as [a|] eqn:Ae; try discriminate.
    eapply gives_call'; [eapply ok_ev; eauto|]. intros v _. specialize (IH _ W2 A).
    destruct (ievs m env es') as [vs|x|]; cbn [give] in IH; cbn [call].
    + destruct IH as [-> _]. cbn [call give]. split; auto.
    + rewrite IH. reflexivity.
    + rewrite IH. reflexivity.
Qed.
Lemma nth_snoc {A} (l : list A) x d n : nth n (l ++ [x]) d = if Nat.eqb n (length l) then x else nth n l d.
Proof.
  destruct (Nat.eqb n (length l)) eqn:E.
  - apply Nat.eqb_eq in E. subst n. rewrite app_nth2, Nat.sub_diag by lia. reflexivity.
  - apply Nat.eqb_neq in E. destruct (Nat.lt_ge_cases n (length l)); [apply app_nth1; lia|].
    rewrite !nth_overflow by (rewrite ?app_length; cbn; lia). reflexivity.
Qed.
Lemma ok_run p : forall p' fs bs env, eok fs bs env -> length bs = length env -> writtenp fs p' p -> fits p bs = true ->
  give (fun _ => True) (irun m p' env) (run_arr m (erasep p) (map to_float env)).
Proof.
  induction p as [es|e p IH|c e1 e2 p IHp q IHq]; intros [es'|e' p'|c' e1' e2' p' q'] fs bs env H L W F; cbn [writtenp] in W; try contradiction;
    cbn [irun erasep run_arr].
  - eapply ok_evs; eauto.
  - destruct W as [W1 W2]. cbn [fits] in F. destruct (aval bs e) as [a|] eqn:Ae; try discriminate.
    eapply gives_call'; [eapply ok_ev; eauto|]. intros v [V Fv]. change [to_float v] with (map to_float [v]). rewrite <- map_app.
    eapply (IH p' (fs ++ [floaty fs e]) (bs ++ [a])); auto; [|rewrite !app_length; cbn; lia].
    destruct H as [Hl Hn]. split; [rewrite !app_length; cbn; lia|]. intros n. rewrite !nth_snoc, L, Hl.
    destruct (Nat.eqb n (length env)); auto.
  - destruct W as (-> & W1 & W2 & W3 & W4). cbn [fits] in F.
    destruct (aval bs e1) as [a1|] eqn:A1; try discriminate. destruct (aval bs e2) as [a2|] eqn:A2; try discriminate.
    apply andb_prop in F as [F1 F2].
    eapply gives_call'; [eapply ok_ev; eauto|]. intros v _. eapply gives_call'; [eapply ok_ev; eauto|]. intros w _.
    destruct (truth c (to_float v) (to_float w)) as [[|]|x|]; cbn [call]; try reflexivity; eauto.
Qed.
End Run.
