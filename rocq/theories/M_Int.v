(** * M_Int: whole numbers as arguments.

    A Python caller who writes [HS(0.5, 37, 2, 44, 0, 'upper')] or [np.array([36, 37])] passes integers. Python integers have
    any size; the elements of an integer array are 64-bit and wrap around silently; [+], [-], [*] and [**] of integers are
    integers, [/] and the functions of NumPy give floats. An integer array to a negative integer power raises ValueError.
    This file runs the programs of M_Array.v with such arguments.

    Two things the programs do not say are added here: which whole-number literals are written as integers ([IInt] against
    [IFlt]), and which reciprocals are written [x**-1] ([IRecip]) and not [1/x].

    Simplifications: arrays have one dimension; a NumPy integer scalar counts as an array of one element; a Python integer
    beyond 64 bits combined with an integer array, and an empty integer array to a power, give no claim; [np.maximum] of two
    Python integers is taken as a float. Other integer types (32 bits on old Windows NumPy) are outside. *)
From Verif Require Import Fl M_Array.
Open Scope fl_scope.

Inductive iexpr := IVar (n : nat) | IFlt (r : R) | IInt (z : Z) | IOp1 (o : op1) (e : iexpr) | IOp2 (o : op2) (e1 e2 : iexpr)
| IRecip (e : iexpr).
Inductive iprog := IRet (es : list iexpr) | ILet (e : iexpr) (p : iprog) | IIf (c : cmp) (e1 e2 : iexpr) (p q : iprog).
(** The program without the two additions. *)
Fixpoint erase (e : iexpr) : expr :=
  match e with
  | IVar n => EVar n
  | IFlt r => ELit r
  | IInt z => ELit (IZR z)
  | IOp1 o e => EOp1 o (erase e)
  | IOp2 o e1 e2 => EOp2 o (erase e1) (erase e2)
  | IRecip e => EOp2 ODiv (ELit 1) (erase e)
  end.
Fixpoint erasep (p : iprog) : prog :=
  match p with
  | IRet es => PRet (map erase es)
  | ILet e p => PLet (erase e) (erasep p)
  | IIf c e1 e2 p q => PIf c (erase e1) (erase e2) (erasep p) (erasep q)
  end.

(** A Python integer, a float, an array of 64-bit integers, an array of floats. *)
Inductive ival := NI (z : Z) | NF (x : fl) | AI (l : list Z) | AF (l : list fl).
Definition z2f (z : Z) : fl := Fin (IZR z).
Definition to_float (v : ival) : val :=
  match v with NI z => VS (z2f z) | NF x => VS x | AI l => VA (map z2f l) | AF l => VA l end.
Definition of_val (v : val) : ival := match v with VS x => NF x | VA l => AF l end.
Definition of_out (o : outcome val) : outcome ival := call! v := o in Ret (of_val v).

Definition in64 (z : Z) : bool := ((- 2 ^ 63 <=? z) && (z <? 2 ^ 63))%Z.
Definition wrap64 (z : Z) : Z := ((z + 2 ^ 63) mod 2 ^ 64 - 2 ^ 63)%Z.

Fixpoint zmap2 (f : Z -> Z -> Z) (a b : list Z) : list Z :=
  match a, b with x :: a, y :: b => f x y :: zmap2 f a b | _, _ => [] end.
Definition zbroadcast (f : Z -> Z -> Z) (a b : list Z) : outcome (list Z) :=
  if Nat.eqb (length a) (length b) then Ret (zmap2 f a b)
  else match a, b with
       | [x], _ => Ret (map (f x) b)
       | _, [y] => Ret (map (fun x => f x y) a)
       | _, _ => Raise ValueError
       end.
(** The operations that keep integers integers. *)
Definition zop (o : op2) : option (Z -> Z -> Z) :=
  match o with OAdd => Some Z.add | OSub => Some Z.sub | OMul => Some Z.mul | _ => None end.

Section Run.
Variable m : mode.
Definition iapp1 (o : op1) (v : ival) : outcome ival :=
  match v, o with
  | NI z, ONeg => Ret (NI (- z))
  | NI z, OPown n => Ret (NI (z ^ Z.of_nat n))
  | AI l, ONeg => Ret (AI (map (fun z => wrap64 (- z)) l))
  | AI l, OPown n => Ret (AI (map (fun z => wrap64 (z ^ Z.of_nat n)) l))
  | _, _ => of_out (app1 o (to_float v))
  end.
(** Two integer operands, at least one of them an array; a Python integer becomes a 64-bit one. *)
Definition zarr (f : Z -> Z -> Z) (v w : ival) : outcome ival :=
  match v, w with
  | AI a, AI b => call! l := zbroadcast f a b in Ret (AI (map wrap64 l))
  | NI x, AI b => if in64 x then Ret (AI (map (fun y => wrap64 (f x y)) b)) else Unknown
  | AI a, NI y => if in64 y then Ret (AI (map (fun x => wrap64 (f x y)) a)) else Unknown
  | _, _ => Unknown
  end.
Definition is_int (v : ival) : bool := match v with NI _ | AI _ => true | _ => false end.
Definition negatives (v : ival) : bool :=
  match v with NI y => (y <? 0)%Z | AI b => existsb (fun y => y <? 0)%Z b | _ => false end.
Definition empty (v : ival) : bool := match v with AI [] => true | _ => false end.
Definition iapp2 (o : op2) (v w : ival) : outcome ival :=
  let floats := of_out (app2 m o (to_float v) (to_float w)) in
  if is_int v && is_int w then
    match o with
    | OAdd | OSub | OMul =>
        match zop o with
        | Some f => match v, w with NI x, NI y => Ret (NI (f x y)) | _, _ => zarr f v w end
        | None => Unknown
        end
    | OMaximum => match v, w with NI _, NI _ => floats | _, _ => zarr Z.max v w end
    | OPow | OPowN =>
        match v, w with
        | NI x, NI y => if (y <? 0)%Z then floats else Ret (NI (x ^ y))
        | _, _ => if empty v || empty w then Unknown else if negatives w then Raise ValueError else zarr Z.pow v w
        end
    | ODiv | ODivN => floats
    end
  else floats.
(** [v**-1]. *)
Definition irecip (v : ival) : outcome ival :=
  match v with
  | AI [] => Unknown
  | AI _ => Raise ValueError
  | _ => of_out (app2 m ODiv (VS #1) (to_float v))
  end.
Fixpoint iev (env : list ival) (e : iexpr) : outcome ival :=
  match e with
  | IVar n => Ret (nth n env (NF Und))
  | IFlt r => Ret (NF (Fin r))
  | IInt z => Ret (NI z)
  | IOp1 o e => call! v := iev env e in iapp1 o v
  | IOp2 o e1 e2 => call! v := iev env e1 in call! w := iev env e2 in iapp2 o v w
  | IRecip e => call! v := iev env e in irecip v
  end.
Fixpoint ievs (env : list ival) (es : list iexpr) : outcome (list ival) :=
  match es with
  | [] => Ret []
  | e :: es => call! v := iev env e in call! vs := ievs env es in Ret (v :: vs)
  end.
Fixpoint irun (p : iprog) (env : list ival) : outcome (list ival) :=
  match p with
  | IRet es => ievs env es
  | ILet e p => call! v := iev env e in irun p (env ++ [v])
  | IIf c e1 e2 p q =>
      call! v := iev env e1 in call! w := iev env e2 in call! b := truth c (to_float v) (to_float w) in
      if b then irun p env else irun q env
  end.
End Run.

(** ** Reading the annotated program off a program of M_ArrayFns.v. Whole-number literals become integers: the integers a run
    meets are then as many as can be. [pw] says whether [1/x] is written [x**-1]. *)
Ltac iexp pw t :=
  lazymatch t with
  | EVar ?n => constr:(IVar n)
  | ELit (IZR ?z) => constr:(IInt z)
  | ELit ?r => constr:(IFlt r)
  | EOp1 ?o ?e => let e := iexp pw e in constr:(IOp1 o e)
  | EOp2 ODiv (ELit 1%R) ?e =>
      let e := iexp pw e in
      lazymatch pw with true => constr:(IRecip e) | false => constr:(IOp2 ODiv (IInt 1) e) end
  | EOp2 ?o ?a ?b => let a := iexp pw a in let b := iexp pw b in constr:(IOp2 o a b)
  end.
Ltac iexps pw t :=
  lazymatch t with
  | nil => constr:(@nil iexpr)
  | cons ?e ?es => let e := iexp pw e in let es := iexps pw es in constr:(cons e es)
  end.
Ltac iprg pw t :=
  lazymatch t with
  | PRet ?es => let es := iexps pw es in constr:(IRet es)
  | PLet ?e ?p => let e := iexp pw e in let p := iprg pw p in constr:(ILet e p)
  | PIf ?c ?a ?b ?p ?q =>
      let a := iexp pw a in let b := iexp pw b in let p := iprg pw p in let q := iprg pw q in constr:(IIf c a b p q)
  end.
Ltac annotated pw p := let t := eval cbv delta [p] in p in let q := iprg pw t in exact q.
