(** * M_Array: what the scalar formulas do when they are called with NumPy arrays.

    The functions of rockphypy are documented for "float or array-like" arguments. Those listed in M_ArrayFns.v are
    straight-line formulas: the same lines run whether an argument is a number or an array, and NumPy applies each operation
    element by element, stretching numbers and one-element arrays (broadcasting). This file models that: the lines of a
    function as a program, run on numbers ([run], which M_ArrayFns.v proves to be the model of the function) or on a mixture
    of numbers and one-dimensional arrays ([run_arr]).

    A returned expression that raises makes the call raise.

    Simplifications: arrays have one dimension; a test ([if x <= y]) of an empty array gives no claim. *)
From Verif Require Import Fl.
Open Scope fl_scope.

Inductive op1 := ONeg | OSqrt | OExp | OLog | OSin | OCos | OTan | OArcsin | OArccos | OArctan | OCosh | ODeg2rad | OPown (n : nat).
(** [ODiv], [OPow]: Python or NumPy arithmetic according to the operands. [ODivN], [OPowN]: an operand is a NumPy number. *)
Inductive op2 := OAdd | OSub | OMul | ODiv | ODivN | OPow | OPowN | OMaximum.
Inductive cmp := CLt | CLe | CEq.
(** Variable n is the n-th argument, or, after the arguments, the n-th assigned name. *)
Inductive expr := EVar (n : nat) | ELit (r : R) | EOp1 (o : op1) (e : expr) | EOp2 (o : op2) (e1 e2 : expr).
Inductive prog :=
| PRet (es : list expr)                          (* return e1, e2, ... *)
| PLet (e : expr) (p : prog)                     (* x = e *)
| PIf (c : cmp) (e1 e2 : expr) (p q : prog).     (* if e1 < e2: p  else: q *)

Definition sem1 (o : op1) : fl -> fl :=
  match o with
  | ONeg => fneg | OSqrt => fsqrt | OExp => fexp | OLog => flog | OSin => fsin | OCos => fcos | OTan => ftan
  | OArcsin => farcsin | OArccos => farccos | OArctan => farctan | OCosh => fcosh | ODeg2rad => fdeg2rad
  | OPown n => fun x => x ^^ n
  end.
Definition sem2 (m : mode) (o : op2) : fl -> fl -> fl :=
  match o with
  | OAdd => fadd | OSub => fsub | OMul => fmul | ODiv => fdiv m | ODivN => fdiv NumPy | OPow => fpow m | OPowN => fpow NumPy
  | OMaximum => fmaximum
  end.
Definition semc (c : cmp) : fl -> fl -> option bool := match c with CLt => fltb | CLe => fleb | CEq => feqb end.

(** ** Numbers *)
Fixpoint rets (xs : list fl) : outcome (list fl) :=
  match xs with [] => Ret [] | x :: xs => let! x := x in call! xs := rets xs in Ret (x :: xs) end.
Section Run.
Variable m : mode.
Fixpoint ev (env : list fl) (e : expr) : fl :=
  match e with
  | EVar n => nth n env Und
  | ELit r => Fin r
  | EOp1 o e => sem1 o (ev env e)
  | EOp2 o e1 e2 => sem2 m o (ev env e1) (ev env e2)
  end.
Fixpoint run (p : prog) (env : list fl) : outcome (list fl) :=
  match p with
  | PRet es => rets (map (ev env) es)
  | PLet e p => let! x := ev env e in run p (env ++ [x])
  | PIf c e1 e2 p q => match semc c (ev env e1) (ev env e2) with Some true => run p env | Some false => run q env | None => Unknown end
  end.

(** ** Numbers and arrays. A [VS] is a number of the arithmetic [m]; an operation on an array is always NumPy's. *)
Inductive val := VS (x : fl) | VA (l : list fl).

(** A number that is an exception aborts the evaluation. *)
Definition num (x : fl) : outcome val := match x with Exc e => Raise e | _ => Ret (VS x) end.
Fixpoint map2 (f : fl -> fl -> fl) (a b : list fl) : list fl :=
  match a, b with x :: a, y :: b => f x y :: map2 f a b | _, _ => [] end.
Definition broadcast (f : fl -> fl -> fl) (a b : list fl) : outcome (list fl) :=
  if Nat.eqb (length a) (length b) then Ret (map2 f a b)
  else match a, b with
       | [x], _ => Ret (map (f x) b)
       | _, [y] => Ret (map (fun x => f x y) a)
       | _, _ => Raise ValueError
       end.
Definition app1 (o : op1) (v : val) : outcome val :=
  match v with VS x => num (sem1 o x) | VA l => Ret (VA (map (sem1 o) l)) end.
Definition app2 (o : op2) (v w : val) : outcome val :=
  match v, w with
  | VS x, VS y => num (sem2 m o x y)
  | VS x, VA b => Ret (VA (map (sem2 NumPy o x) b))
  | VA a, VS y => Ret (VA (map (fun x => sem2 NumPy o x y) a))
  | VA a, VA b => call! l := broadcast (sem2 NumPy o) a b in Ret (VA l)
  end.
Fixpoint ev_arr (env : list val) (e : expr) : outcome val :=
  match e with
  | EVar n => Ret (nth n env (VS Und))
  | ELit r => Ret (VS (Fin r))
  | EOp1 o e => call! v := ev_arr env e in app1 o v
  | EOp2 o e1 e2 => call! v := ev_arr env e1 in call! w := ev_arr env e2 in app2 o v w
  end.
Fixpoint ev_arrs (env : list val) (es : list expr) : outcome (list val) :=
  match es with
  | [] => Ret []
  | e :: es => call! v := ev_arr env e in call! vs := ev_arrs env es in Ret (v :: vs)
  end.
(** The truth value of a comparison. That of an array of several elements is an error. *)
Definition truth (c : cmp) (v w : val) : outcome bool :=
  let ofopt b := match b with Some b => Ret b | None => Unknown end in
  match v, w with
  | VS x, VS y => ofopt (semc c x y)
  | _, _ =>
      let a := match v with VS x => [x] | VA l => l end in
      let b := match w with VS x => [x] | VA l => l end in
      match a, b with
      | [x], [y] => ofopt (semc c x y)
      | [], _ | _, [] => Unknown
      | [_], _ | _, [_] => Raise ValueError
      | _, _ => Raise ValueError
      end
  end.
Fixpoint run_arr (p : prog) (env : list val) : outcome (list val) :=
  match p with
  | PRet es => ev_arrs env es
  | PLet e p => call! v := ev_arr env e in run_arr p (env ++ [v])
  | PIf c e1 e2 p q =>
      call! v := ev_arr env e1 in call! w := ev_arr env e2 in call! b := truth c v w in
      if b then run_arr p env else run_arr q env
  end.
End Run.

(** ** Reading a program off the model of a function: [tag n] stands for variable n, [mtag] for the arithmetic. *)
Definition tag (n : nat) : fl := Und.
Definition mtag : mode := NumPy.
Ltac rexpr t :=
  lazymatch t with
  | tag ?n => constr:(EVar n)
  | Fin ?r => constr:(ELit r)
  | fneg ?a => let a := rexpr a in constr:(EOp1 ONeg a)
  | fsqrt ?a => let a := rexpr a in constr:(EOp1 OSqrt a)
  | fexp ?a => let a := rexpr a in constr:(EOp1 OExp a)
  | flog ?a => let a := rexpr a in constr:(EOp1 OLog a)
  | fsin ?a => let a := rexpr a in constr:(EOp1 OSin a)
  | fcos ?a => let a := rexpr a in constr:(EOp1 OCos a)
  | ftan ?a => let a := rexpr a in constr:(EOp1 OTan a)
  | farcsin ?a => let a := rexpr a in constr:(EOp1 OArcsin a)
  | farccos ?a => let a := rexpr a in constr:(EOp1 OArccos a)
  | farctan ?a => let a := rexpr a in constr:(EOp1 OArctan a)
  | fcosh ?a => let a := rexpr a in constr:(EOp1 OCosh a)
  | fdeg2rad ?a => let a := rexpr a in constr:(EOp1 ODeg2rad a)
  | fpown ?a ?n => let a := rexpr a in constr:(EOp1 (OPown n) a)
  | fadd ?a ?b => let a := rexpr a in let b := rexpr b in constr:(EOp2 OAdd a b)
  | fsub ?a ?b => let a := rexpr a in let b := rexpr b in constr:(EOp2 OSub a b)
  | fmul ?a ?b => let a := rexpr a in let b := rexpr b in constr:(EOp2 OMul a b)
  | fdiv mtag ?a ?b => let a := rexpr a in let b := rexpr b in constr:(EOp2 ODiv a b)
  | fdiv NumPy ?a ?b => let a := rexpr a in let b := rexpr b in constr:(EOp2 ODivN a b)
  | fpow mtag ?a ?b => let a := rexpr a in let b := rexpr b in constr:(EOp2 OPow a b)
  | fpow NumPy ?a ?b => let a := rexpr a in let b := rexpr b in constr:(EOp2 OPowN a b)
  | fmaximum ?a ?b => let a := rexpr a in let b := rexpr b in constr:(EOp2 OMaximum a b)
  end.
Ltac rtuple t acc :=
  lazymatch t with
  | (?a, ?b) => let b := rexpr b in rtuple a (b :: acc)
  | ?a => let a := rexpr a in constr:(a :: acc)
  end.
Ltac rcmp c :=
  lazymatch c with
  | fltb ?a ?b => let a := rexpr a in let b := rexpr b in constr:((CLt, a, b))
  | fleb ?a ?b => let a := rexpr a in let b := rexpr b in constr:((CLe, a, b))
  | feqb ?a ?b => let a := rexpr a in let b := rexpr b in constr:((CEq, a, b))
  end.
Ltac rprog t n :=
  lazymatch t with
  | bind ?e ?k =>
      let e := rexpr e in let b := eval cbv beta in (k (tag n)) in let p := rprog b (S n) in constr:(PLet e p)
  | call (bind ?e ?k) ?h =>
      let e := rexpr e in let b := eval cbv beta in (k (tag n)) in let p := rprog constr:(call b h) (S n) in constr:(PLet e p)
  | call (call ?e ?k) ?h => rprog constr:(call e (fun x => call (k x) h)) n
  | call (match ?c with Some b => @?f b | None => Unknown end) ?h =>
      let x := rcmp c in let f1 := eval cbv beta iota in (f true) in let f2 := eval cbv beta iota in (f false) in
      lazymatch x with
      | (?c, ?a, ?b) => let p := rprog constr:(call f1 h) n in let q := rprog constr:(call f2 h) n in constr:(PIf c a b p q)
      end
  | match ?c with Some b => @?f b | None => Unknown end =>
      let x := rcmp c in let f1 := eval cbv beta iota in (f true) in let f2 := eval cbv beta iota in (f false) in
      lazymatch x with
      | (?c, ?a, ?b) => let p := rprog f1 n in let q := rprog f2 n in constr:(PIf c a b p q)
      end
  | call (Ret ?a) ?k => let b := eval cbv beta iota in (k a) in rprog b n
  | Ret ?a => let es := rtuple a (@nil expr) in constr:(PRet es)
  end.
Ltac reify t := let p := rprog t 0%nat in exact p.
