(** * Dimensions of models that are not programs of M_Array.v: matrices, lists, complex numbers, composed functions. *)
From Verif Require Import Spec20 Fl Cx M_Utils M_EM M_Anis M_Array L_Units.
Open Scope R_scope.

Section S.
Variable u : units.
Lemma sc_lit r : Fin r = inu u dless (Fin r).
Proof. symmetry. apply inu_dless. Qed.
Lemma sc_dless x : x = inu u dless x.
Proof. symmetry. apply inu_dless. Qed.
Lemma sc_zero d : Fin 0 = inu u d (Fin 0).
Proof. symmetry. apply inu_zero. Qed.
Lemma sc_neg d x x' : x' = inu u d x -> fneg x' = inu u d (fneg x).
Proof. intros ->. apply inu_neg. Qed.
Lemma sc_rad d x x' : x' = inu u d x -> fdeg2rad x' = inu u d (fdeg2rad x).
Proof. intros ->. apply inu_rad. Qed.
Lemma sc_sqrt d d' x x' : x' = inu u d x -> d' = dpow (Qmake 1 2) d -> fsqrt x' = inu u d' (fsqrt x).
Proof. intros -> ->. apply inu_sqrt. Qed.
Lemma sc_pown n d d' x x' : x' = inu u d x -> d' = dpow (Qmake (Z.of_nat n) 1) d -> fpown x' n = inu u d' (fpown x n).
Proof. intros -> ->. apply inu_pown. Qed.
Lemma sc_fun (f : fl -> fl) x x' : x' = inu u dless x -> f x' = inu u dless (f x).
Proof. intros ->. rewrite !inu_dless. reflexivity. Qed.
Lemma sc_add d x x' y y' : x' = inu u d x -> y' = inu u d y -> fadd x' y' = inu u d (fadd x y).
Proof. intros -> ->. apply inu_add. Qed.
Lemma sc_sub d x x' y y' : x' = inu u d x -> y' = inu u d y -> fsub x' y' = inu u d (fsub x y).
Proof. intros -> ->. apply inu_sub. Qed.
Lemma sc_max d x x' y y' : x' = inu u d x -> y' = inu u d y -> fmaximum x' y' = inu u d (fmaximum x y).
Proof. intros -> ->. apply inu_max. Qed.
Lemma sc_mul d e g x x' y y' : x' = inu u d x -> y' = inu u e y -> g = dmul d e -> fmul x' y' = inu u g (fmul x y).
Proof. intros -> -> ->. apply inu_mul. Qed.
Lemma sc_div m d e g x x' y y' : x' = inu u d x -> y' = inu u e y -> g = ddiv d e -> fdiv m x' y' = inu u g (fdiv m x y).
Proof. intros -> -> ->. apply inu_div. Qed.
Lemma sc_pow m d q g x x' c : x' = inu u d x -> c = Fin (Q2R q) -> g = dpow q d -> fpow m x' c = inu u g (fpow m x c).
Proof. intros -> -> ->. apply inu_pow. Qed.
Lemma sc_pow0 m x x' y y' : x' = inu u dless x -> y' = inu u dless y -> fpow m x' y' = inu u dless (fpow m x y).
Proof. intros -> ->. rewrite !inu_dless. reflexivity. Qed.
Lemma sc_if (b : bool) d x x' y y' : x' = inu u d x -> y' = inu u d y -> (if b then x' else y') = inu u d (if b then x else y).
Proof. destruct b; auto. Qed.
Lemma lit_div m a b p q : a = Fin (Q2R p) -> b = Fin (Q2R q) -> ~ (q == 0)%Q -> fdiv m a b = Fin (Q2R (p / q)).
Proof.
  intros -> -> N. assert (Q2R q <> 0) by (intro E; apply N, eqR_Qeq; rewrite E; unfold Q2R; cbn; lra).
  rewrite fdiv_fin by auto. unfold Qdiv. rewrite Q2R_mult, Q2R_inv by auto. reflexivity.
Qed.
Lemma lit_neg a p : a = Fin (Q2R p) -> fneg a = Fin (Q2R (- p)).
Proof. intros ->. rewrite Q2R_opp. reflexivity. Qed.
Lemma sc_mget d C i j : mget (inm u d C) i j = inu u d (mget C i j).
Proof.
  unfold mget, inm. change (@nil fl) with (map (inu u d) []) at 1. rewrite (map_nth (map (inu u d))).
  change (Exc IndexError) with (inu u d (Exc IndexError)) at 1. apply map_nth.
Qed.

(** ** Complex numbers *)
Lemma sc_cof d x x' : x' = inu u d x -> cof x' = inc u d (cof x).
Proof. intros ->. destruct x; cbn -[factor]; try reflexivity. f_equal; ring. Qed.
Lemma sc_clit a b : CFin a b = inc u dless (CFin a b).
Proof. cbn -[factor]. rewrite factor_dless. f_equal; ring. Qed.
Lemma sc_cdless z : z = inc u dless z.
Proof. destruct z; [apply sc_clit|reflexivity]. Qed.
Lemma sc_cfun (f : cx -> cx) x x' : x' = inc u dless x -> f x' = inc u dless (f x).
Proof. intros ->. rewrite <- !sc_cdless. reflexivity. Qed.
Lemma sc_cadd d x x' y y' : x' = inc u d x -> y' = inc u d y -> cadd x' y' = inc u d (cadd x y).
Proof. intros -> ->. destruct x, y; cbn -[factor]; try reflexivity. f_equal; ring. Qed.
Lemma sc_csub d x x' y y' : x' = inc u d x -> y' = inc u d y -> csub x' y' = inc u d (csub x y).
Proof. intros -> ->. destruct x, y; cbn -[factor]; try reflexivity. f_equal; ring. Qed.
Lemma sc_cneg d x x' : x' = inc u d x -> cneg x' = inc u d (cneg x).
Proof. intros ->. destruct x; cbn -[factor]; try reflexivity. f_equal; ring. Qed.
Lemma sc_cmul d e g x x' y y' : x' = inc u d x -> y' = inc u e y -> g = dmul d e -> cmul x' y' = inc u g (cmul x y).
Proof. intros -> -> ->. destruct x, y; cbn -[factor dmul]; try reflexivity. rewrite factor_dmul. f_equal; ring. Qed.
Lemma sc_cdiv d e g x x' y y' : x' = inc u d x -> y' = inc u e y -> g = ddiv d e -> cdiv x' y' = inc u g (cdiv x y).
Proof.
  intros -> -> ->. destruct x as [a b|], y as [c f|]; try reflexivity. assert (P := factor_pos u e).
  destruct (Req_EM_T (c ^ 2 + f ^ 2) 0) as [E|E].
  - unfold cdiv, clift2, inc. destruct (Req_EM_T (c ^ 2 + f ^ 2) 0); [|contradiction].
    destruct (Req_EM_T ((factor u e * c) ^ 2 + (factor u e * f) ^ 2) 0) as [F|F]; [reflexivity|]. exfalso. apply F.
    replace ((factor u e * c) ^ 2 + (factor u e * f) ^ 2) with (factor u e ^ 2 * (c ^ 2 + f ^ 2)) by ring. rewrite E. ring.
  - assert (N : (factor u e * c) ^ 2 + (factor u e * f) ^ 2 <> 0).
    { replace ((factor u e * c) ^ 2 + (factor u e * f) ^ 2) with (factor u e ^ 2 * (c ^ 2 + f ^ 2)) by ring.
      apply Rmult_integral_contrapositive; split; auto; apply pow_nonzero; lra. }
    cbn [inc]. rewrite !cdiv_fin by auto. cbn [inc]. rewrite factor_ddiv. f_equal; field; repeat split; auto; lra.
Qed.
Lemma sc_creal d x x' : x' = inc u d x -> creal x' = inu u d (creal x).
Proof. intros ->. destruct x; reflexivity. Qed.
Lemma sc_cimag d x x' : x' = inc u d x -> cimag x' = inu u d (cimag x).
Proof. intros ->. destruct x; reflexivity. Qed.
Lemma hyp_scale k a b : 0 < k -> sqrt ((k * a) ^ 2 + (k * b) ^ 2) = k * sqrt (a ^ 2 + b ^ 2).
Proof.
  intros P. replace ((k * a) ^ 2 + (k * b) ^ 2) with (k ^ 2 * (a ^ 2 + b ^ 2)) by ring.
  assert (0 <= a ^ 2) by apply pow2_ge_0. assert (0 <= b ^ 2) by apply pow2_ge_0.
  rewrite sqrt_mult by nra. f_equal. replace (k ^ 2) with (k * k) by ring. apply sqrt_square. lra.
Qed.
Lemma sc_cabs d x x' : x' = inc u d x -> cabs x' = inu u d (cabs x).
Proof.
  intros ->. destruct x; [|reflexivity]. cbn [inc cabs inu]. f_equal. apply hyp_scale, factor_pos.
Qed.
Lemma sc_csqrt d g x x' : x' = inc u d x -> g = dpow (Qmake 1 2) d -> csqrt x' = inc u g (csqrt x).
Proof.
  intros -> ->. destruct x as [a b|]; [|reflexivity]. assert (P := factor_pos u d).
  assert (F : factor u (dpow (Qmake 1 2) d) = sqrt (factor u d)).
  { rewrite factor_dpow. replace (Q2R (Qmake 1 2)) with (/2) by (unfold Q2R; cbn; lra). apply Rpower_sqrt, P. }
  cbn [inc csqrt]. rewrite zero_dec. destruct (Req_EM_T b 0) as [->|N].
  - assert (H : 0 <= factor u d * a <-> 0 <= a).
    { split; intros; [|apply Rmult_le_pos; lra]. apply Rmult_le_reg_l with (factor u d); lra. }
    destruct (Rle_dec 0 (factor u d * a)), (Rle_dec 0 a); try tauto. cbn [inc]. rewrite F, sqrt_mult by lra. f_equal; ring.
  - rewrite hyp_scale by auto. set (r := sqrt (a ^ 2 + b ^ 2)).
    assert (R0 : 0 <= r) by apply sqrt_pos.
    assert (R2 : r ^ 2 = a ^ 2 + b ^ 2).
    { unfold r. apply pow2_sqrt. assert (0 <= a^2) by apply pow2_ge_0. assert (0 <= b^2) by apply pow2_ge_0. lra. }
    assert (RA : - r <= a <= r).
    { assert (0 <= b^2) by apply pow2_ge_0. split.
      - apply Ropp_le_cancel. rewrite Ropp_involutive. apply Rsqr_incr_0_var; [unfold Rsqr; nra|assumption].
      - apply Rsqr_incr_0_var; [unfold Rsqr; nra|assumption]. }
    replace ((factor u d * r + factor u d * a) / 2) with (factor u d * ((r + a) / 2)) by field.
    replace ((factor u d * r - factor u d * a) / 2) with (factor u d * ((r - a) / 2)) by field.
    rewrite !sqrt_mult by lra.
    assert (H : 0 < factor u d * b <-> 0 < b).
    { split; intros; [|apply Rmult_lt_0_compat; lra]. apply Rmult_lt_reg_l with (factor u d); lra. }
    destruct (Rlt_dec 0 (factor u d * b)), (Rlt_dec 0 b); try tauto; cbn [inc]; rewrite F; f_equal; ring.
Qed.

(** ** Comparisons *)
Lemma sc_cmp (c : fl -> fl -> option bool) d x x' y y' : (c = fltb \/ c = fleb \/ c = feqb) -> x' = inu u d x -> y' = inu u d y -> c x' y' = c x y.
Proof.
  intros [-> | [-> | ->]] -> ->; [exact (inu_cmp u CLt d x y)|exact (inu_cmp u CLe d x y)|exact (inu_cmp u CEq d x y)].
Qed.

(** ** Statements of a function body. [R] puts a result in the new units. *)
Lemma sc_bind A B d x x' (k k' : fl -> outcome A) (h h' : A -> outcome B) (R : outcome B -> outcome B) :
  (forall e, R (Raise e) = Raise e) -> x' = inu u d x ->
  (forall y, call (k' (inu u d y)) h' = R (call (k y) h)) ->
  call (bind x' k') h' = R (call (bind x k) h).
Proof. intros HR -> H. destruct x; cbn -[factor] in *; auto; try apply (H (Fin r)); try apply (H Inf); try apply (H NaN); try apply (H Und). Qed.
Lemma sc_bind0 B d x x' (k k' : fl -> outcome B) (R : outcome B -> outcome B) :
  (forall e, R (Raise e) = Raise e) -> x' = inu u d x -> (forall y, k' (inu u d y) = R (k y)) -> bind x' k' = R (bind x k).
Proof. intros HR -> H. destruct x; cbn -[factor] in *; auto; try apply (H (Fin r)); try apply (H Inf); try apply (H NaN); try apply (H Und). Qed.
Lemma call_id A (o : outcome A) : call o (fun a => Ret a) = o.
Proof. destruct o; reflexivity. Qed.
Lemma call_call_ A B C (o : outcome A) (k : A -> outcome B) (h : B -> outcome C) :
  call (call o k) h = call o (fun x => call (k x) h).
Proof. destruct o; reflexivity. Qed.
Lemma sc_rets xs xs' ds : xs' = inus u ds xs -> length xs = length ds -> rets xs' = res u ds (rets xs).
Proof. intros -> L. apply rets_res, L. Qed.

(** ** Lists *)
Lemma inl_length d l : length (inl u d l) = length l.
Proof. apply map_length. Qed.
Lemma sc_fsum d l : fsum (inl u d l) = inu u d (fsum l).
Proof. induction l as [|x l I]; [apply sc_zero|]. cbn [inl map fsum]. apply sc_add; auto. Qed.
Lemma sc_fmap2 (f : fl -> fl -> fl) d e g a b : (forall x y, f (inu u d x) (inu u e y) = inu u g (f x y)) ->
  fmap2 f (inl u d a) (inl u e b) = inl u g (fmap2 f a b).
Proof. intros H. revert b. induction a as [|x a I]; intros [|y b]; cbn; auto. rewrite H. f_equal. apply I. Qed.
Lemma sc_fmap2' (f f' : fl -> fl -> fl) d e g a b a' b' : a' = inl u d a -> b' = inl u e b -> (forall x y, f' (inu u d x) (inu u e y) = inu u g (f x y)) ->
  fmap2 f' a' b' = inl u g (fmap2 f a b).
Proof. intros -> -> H. revert b. induction a as [|x a I]; intros [|y b]; cbn; auto. rewrite H. f_equal. apply I. Qed.
Lemma sc_np_bc (f : fl -> fl -> fl) d e g a b : (forall x y, f (inu u d x) (inu u e y) = inu u g (f x y)) ->
  np_bc f (inl u d a) (inl u e b) = after (inl u g) (np_bc f a b).
Proof.
  intros H. unfold np_bc. rewrite !inl_length. destruct (Nat.eqb _ _); [cbn [after]; rewrite (sc_fmap2 f d e g) by exact H; reflexivity|].
  assert (L : forall x l, map (f (inu u d x)) (inl u e l) = inl u g (map (f x) l)) by (intros; unfold inl; rewrite !map_map; apply map_ext; auto).
  assert (R : forall y l, map (fun x => f x (inu u e y)) (inl u d l) = inl u g (map (fun x => f x y) l))
    by (intros; unfold inl; rewrite !map_map; apply map_ext; auto).
  destruct a as [|x [|x' a]], b as [|y [|y' b]]; cbn [inl map after] in *; try reflexivity;
    first [exact (f_equal (@Ret _) (L x [])) | exact (f_equal (@Ret _) (L x [y])) | exact (f_equal (@Ret _) (L x (y :: y' :: b)))
          | exact (f_equal (@Ret _) (R y [])) | exact (f_equal (@Ret _) (R y (x :: x' :: a)))].
Qed.
Lemma sc_map (f f' : fl -> fl) d g a a' : a' = inl u d a -> (forall x, f' (inu u d x) = inu u g (f x)) -> map f' a' = inl u g (map f a).
Proof. intros -> H. unfold inl. rewrite !map_map. apply map_ext, H. Qed.
Lemma sc_fdot d e g a b : g = dmul d e -> fdot (inl u d a) (inl u e b) = inu u g (fdot a b).
Proof. intros ->. unfold fdot. rewrite (sc_fmap2 fmul d e (dmul d e)) by apply inu_mul. apply sc_fsum. Qed.
Lemma inl_dless l : inl u dless l = l.
Proof. unfold inl. rewrite (map_ext _ (fun x => x)) by apply inu_dless. apply map_id. Qed.
End S.

Ltac litq :=
  lazymatch goal with
  | |- Fin ?r = _ => let q := r2q r in
      lazymatch goal with |- _ = ?rhs => let E := fresh in assert (E : Fin r = Fin (Q2R q)) by (f_equal; q2r_eq); exact E end
  | |- fneg _ = _ => eapply lit_neg; litq
  | |- fdiv _ _ _ = _ => eapply lit_div; [litq|litq|vm_compute; discriminate]
  end.
Ltac sc :=
  lazymatch goal with
  | |- _ = inu _ _ ?E =>
    lazymatch E with
    | Fin _ => first [apply sc_lit | apply sc_zero]
    | fneg _ => eapply sc_neg; sc
    | fdeg2rad _ => eapply sc_rad; sc
    | fsqrt _ => eapply sc_sqrt; [sc|dcomp]
    | fpown _ _ => eapply sc_pown; [sc|dcomp]
    | fexp _ => apply (sc_fun _ fexp); sc
    | flog _ => apply (sc_fun _ flog); sc
    | fsin _ => apply (sc_fun _ fsin); sc
    | fcos _ => apply (sc_fun _ fcos); sc
    | ftan _ => apply (sc_fun _ ftan); sc
    | fcosh _ => apply (sc_fun _ fcosh); sc
    | farcsin _ => apply (sc_fun _ farcsin); sc
    | farccos _ => apply (sc_fun _ farccos); sc
    | farctan _ => apply (sc_fun _ farctan); sc
    | fadd (Fin 0) _ => eapply sc_add; [|sc]; sc
    | fsub (Fin 0) _ => eapply sc_sub; [|sc]; sc
    | fadd _ _ => eapply sc_add; [sc|sc]
    | fsub _ _ => eapply sc_sub; [sc|sc]
    | fmaximum _ _ => eapply sc_max; [sc|sc]
    | fmul _ _ => eapply sc_mul; [sc|sc|dcomp]
    | fdiv _ _ _ => eapply sc_div; [sc|sc|dcomp]
    | fpow _ _ _ => first [eapply sc_pow; [sc|litq|dcomp] | eapply sc_pow0; sc]
    | (if ?b then _ else _) => eapply (sc_if _ b); [sc|sc]
    | mget _ _ _ => first [apply sc_mget | apply sc_dless]
    | creal _ => eapply sc_creal; scc
    | cimag _ => eapply sc_cimag; scc
    | cabs _ => eapply sc_cabs; scc
    | _ => first [reflexivity | apply sc_dless]
    end
  end
with scc :=
  lazymatch goal with
  | |- _ = inc _ _ ?E =>
    lazymatch E with
    | CFin _ _ => apply sc_clit
    | cof _ => eapply sc_cof; sc
    | cadd _ _ => eapply sc_cadd; [scc|scc]
    | csub _ _ => eapply sc_csub; [scc|scc]
    | cneg _ => eapply sc_cneg; scc
    | cmul _ _ => eapply sc_cmul; [scc|scc|dcomp]
    | cdiv _ _ => eapply sc_cdiv; [scc|scc|dcomp]
    | cexp _ => apply (sc_cfun _ cexp); scc
    | csqrt _ => eapply sc_csqrt; [scc|dcomp]
    | ?f _ => apply (sc_cfun _ f); scc
    | _ => first [reflexivity | apply sc_cdless]
    end
  end.
(** A body, statement by statement. [call (if b ...)] and the like are split first. *)
Ltac sceq :=
  lazymatch goal with
  | |- (_, _) = (_, _) => apply f_equal2; sceq
  | |- cons _ _ = cons _ _ => apply f_equal2; sceq
  | |- nil = nil => reflexivity
  | |- EC_array _ _ _ _ _ = _ => f_equal; sceq
  | |- EC_mat _ = _ => f_equal; sceq
  | |- _ = inc _ _ _ => scc
  | |- _ => sc
  end.
Ltac scend :=
  lazymatch goal with
  | |- rets _ = res _ _ (rets _) => apply sc_rets; [cbn [inus]; repeat (apply (f_equal2 cons); [sc|]); reflexivity|reflexivity]
  | |- Ret _ = after _ (Ret _) => cbn [after call inm inl map inec in2 in3 in4 in5 in6]; apply f_equal; sceq
  | |- Raise _ = _ => reflexivity
  | |- Unknown = _ => reflexivity
  end.
Ltac scstep :=
  lazymatch goal with
  | |- call (bind _ _) _ = _ => lazymatch goal with u : units |- _ => eapply (sc_bind u) end; [reflexivity|sc|intro; cbv beta]
  | |- bind ?x' ?k' = ?R (bind ?x ?k) =>
      lazymatch goal with u : units |- _ => eapply (sc_bind0 u) end; [reflexivity|sc|intro; cbv beta]
  | |- call (call _ _) _ = _ => rewrite !call_call_; cbv beta
  | |- call (Ret _) _ = _ => rewrite !call_ret; cbv beta iota
  | |- call (Raise _) _ = _ => reflexivity
  | |- call Unknown _ = _ => reflexivity
  | |- call (if ?b then _ else _) _ = _ => destruct b
  | |- call (match ?c ?x' ?y' with Some _ => _ | None => _ end) _ = ?R (call (match ?c ?x ?y with Some _ => _ | None => _ end) _) =>
      first [constr_eq x x'; constr_eq y y' | replace (c x' y') with (c x y) by (symmetry; eapply sc_cmp; [auto|sc|sc])]; destruct (c x y) as [[]|]
  | |- match ?c ?x' ?y' with Some _ => _ | None => _ end = ?R (match ?c ?x ?y with Some _ => _ | None => _ end) =>
      first [constr_eq x x'; constr_eq y y' | replace (c x' y') with (c x y) by (symmetry; eapply sc_cmp; [auto|sc|sc])]; destruct (c x y) as [[]|]
  | |- (if ?b then _ else _) = _ => destruct b
  | |- call (let '(_, _) := ?p in _) _ = _ => destruct p
  | |- _ => scend
  end.
Ltac scs := repeat scstep.
