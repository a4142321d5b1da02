open Fl
let f x = Fin x
let rec flat (o:Obj.t) : float list =
  if Obj.is_int o then []
  else if Obj.tag o = Obj.double_tag then [ (Obj.obj o : float) ]
  else if Obj.tag o = Obj.double_array_tag then Array.to_list (Obj.obj o : float array)
  else Stdlib.List.concat (Stdlib.List.init (Obj.size o) (fun i -> flat (Obj.field o i)))
let out o = match o with Ret a -> flat (Obj.repr a) | Raise _ -> print_string "RAISE "; [] | Unknown -> print_string "UNKNOWN "; []
let bad = ref 0
let chk name (ex:float list) (got: float list) =
  if Stdlib.List.length ex <> Stdlib.List.length got then (incr bad; Printf.printf "LEN %s exp %d got %d: %s\n" name (Stdlib.List.length ex) (Stdlib.List.length got) (Stdlib.String.concat " " (Stdlib.List.map string_of_float got)))
  else
    let w = ref 0. and ok = ref true in
    Stdlib.List.iter2 (fun e g -> let d = abs_float (e-.g) in let t = 1e-6 +. 1e-6 *. abs_float e in if not (d <= t) then ok := false; if d/.t > !w then w := d/.t) ex got;
    if !ok then Printf.printf "ok   %s (%.2g)\n" name !w
    else (incr bad; Printf.printf "FAIL %s worst %.3g\n   exp %s\n   got %s\n" name !w
      (Stdlib.String.concat " " (Stdlib.List.map string_of_float ex)) (Stdlib.String.concat " " (Stdlib.List.map string_of_float got)))
let linspace a b n = Stdlib.List.init n (fun i -> a +. (b-.a) *. float_of_int i /. float_of_int (n-1))
(* results for arrays, transposed: all first components, then all second ... *)
let tr rows = match rows with [] -> [] | r::_ -> Stdlib.List.concat (Stdlib.List.init (Stdlib.List.length r) (fun j -> Stdlib.List.map (fun r -> Stdlib.List.nth r j) rows))
let arr g l = tr (Stdlib.List.map (fun x -> out (g x)) l)
let str s = Stdlib.List.init (Stdlib.String.length s) (Stdlib.String.get s)
let mat l = Stdlib.List.map (Stdlib.List.map f) l
let sym a b c d g h = (* iso/vti helper *) ()
let p = PyFloat and n = NumPy
let map = Stdlib.List.map
let diag c44 c55 c66 = [[0.;0.;0.;c44;0.;0.];[0.;0.;0.;0.;c55;0.];[0.;0.;0.;0.;0.;c66]]
let m6 a b c d e g c44 c55 c66 = Stdlib.List.concat ([[a;b;c;0.;0.;0.];[b;d;e;0.;0.;0.];[c;e;g;0.;0.;0.]] @ diag c44 c55 c66)
let inv (m: fl list list) = (* Gauss-Jordan *)
  let a = Array.of_list (map (fun r -> Array.of_list (map (function Fin x -> x | _ -> nan) r)) m) in
  let k = Array.length a in
  let b = Array.init k (fun i -> Array.init k (fun j -> if i=j then 1. else 0.)) in
  for c=0 to k-1 do
    let pv = ref c in for i=c to k-1 do if abs_float a.(i).(c) > abs_float a.(!pv).(c) then pv := i done;
    let t=a.(c) in a.(c) <- a.(!pv); a.(!pv) <- t; let t=b.(c) in b.(c) <- b.(!pv); b.(!pv) <- t;
    let d = a.(c).(c) in
    for j=0 to k-1 do a.(c).(j) <- a.(c).(j)/.d; b.(c).(j) <- b.(c).(j)/.d done;
    for i=0 to k-1 do if i<>c then let d=a.(i).(c) in for j=0 to k-1 do a.(i).(j) <- a.(i).(j) -. d*.a.(c).(j); b.(i).(j) <- b.(i).(j) -. d*.b.(c).(j) done done
  done; Array.to_list (Array.map (fun r -> Array.to_list (Array.map f r)) b)
let npinv m = Ret (inv m)
(* Newton with numerical jacobian *)
let gf = function Fin x -> x | _ -> nan
let fsolve res (x0,y0) =
  let ev x y = match res (f x) (f y) with Ret (a,b) -> (gf a, gf b) | _ -> (nan,nan) in
  let x = ref (gf x0) and y = ref (gf y0) in
  for _=1 to 60 do
    let h=1e-6 in let (a,b)=ev !x !y in let hx=h*. (1.+.abs_float !x) and hy=h*.(1.+.abs_float !y) in
    let (a1,b1)=ev (!x+.hx) !y and (a2,b2)=ev !x (!y+.hy) in
    let (a1m,b1m)=ev (!x-.hx) !y and (a2m,b2m)=ev !x (!y-.hy) in
    let j11=(a1-.a1m)/.hx/.2. and j21=(b1-.b1m)/.hx/.2. and j12=(a2-.a2m)/.hy/.2. and j22=(b2-.b2m)/.hy/.2. in
    let d=j11*.j22-.j12*.j21 in
    x := !x -. (j22*.a -. j12*.b)/.d; y := !y -. (j11*.b -. j21*.a)/.d done;
  (f !x, f !y)
let odeint rhs (a0,b0) ts =
  let ev k g t = match rhs (f k) (f g) (f t) with Ret (a,b) -> (gf a, gf b) | _ -> (nan,nan) in
  let rec go k g t l = match l with [] -> [] | s::l ->
    let s=gf s in let steps=200 in let h=(s-.t)/.float_of_int steps in
    let k=ref k and g=ref g and u=ref t in
    if s>t then for _=1 to steps do
      let (a1,b1)=ev !k !g !u in let (a2,b2)=ev (!k+.h/.2.*.a1) (!g+.h/.2.*.b1) (!u+.h/.2.) in
      let (a3,b3)=ev (!k+.h/.2.*.a2) (!g+.h/.2.*.b2) (!u+.h/.2.) in let (a4,b4)=ev (!k+.h*.a3) (!g+.h*.b3) (!u+.h) in
      k := !k+.h/.6.*.(a1+.2.*.a2+.2.*.a3+.a4); g := !g+.h/.6.*.(b1+.2.*.b2+.2.*.b3+.b4); u := !u+.h done;
    (f !k, f !g) :: go !k !g s l in
  go (gf a0) (gf b0) 0. ts
(* roots of x^3+ c2 x + c3 *)
let roots3 l = match map gf l with [_;_;c2;c3] ->
   let x=ref 1. in for _=1 to 200 do x := !x -. (!x** 3. +. c2 *. !x +. c3)/.(3. *. !x *. !x +. c2) done;
   let r = !x in (* x^2 + r x + (c2 + r^2) *) let d = r*.r -. 4.*.(c2+.r*.r) in
   [Cx.CFin(r,0.); Cx.CFin(-.r/.2., sqrt(-.d)/.2.); Cx.CFin(-.r/.2., -.sqrt(-.d)/.2.)] | _ -> []
(* jv 0,1 of a complex argument by series/ asymptotic *)
module C = Complex
let jv k z = match z with Cx.CUnd -> Cx.CUnd | Cx.CFin(a,b) ->
  let z={C.re=a;im=b} in
  if C.norm z < 25. then begin
    let h = C.div z {C.re=2.;im=0.} in let h2 = C.neg (C.mul h h) in
    let t = ref (if k=0 then C.one else h) in let s = ref !t in
    for i=1 to 200 do t := C.div (C.mul !t h2) {C.re=float_of_int (i*(i+k)); im=0.}; s := C.add !s !t done;
    Cx.CFin(!s.C.re, !s.C.im) end
  else begin (* Hankel asymptotics; overall scale cancels in J1/J0 *)
    let mu=4. *. float_of_int (k*k) in
    let pq = ref C.one and qq = ref C.zero and t = ref C.one in
    for i=1 to 12 do
      let fi=float_of_int i in
      let c = (mu -. (2.*.fi-.1.)**2.)/.(fi*.8.) in
      t := C.div (C.mul !t {C.re=c;im=0.}) z;
      (match i mod 4 with 1 -> qq := C.add !qq !t | 2 -> pq := C.sub !pq !t | 3 -> qq := C.sub !qq !t | _ -> pq := C.add !pq !t) done;
    (* scaled by exp(-|Im z|) *)
    let chi = C.sub z {C.re=(float_of_int k /. 2. +. 0.25)*.Float.pi; im=0.} in
    let im = abs_float b in
    let e1 = C.exp (C.sub (C.mul C.i chi) {C.re=im;im=0.}) and e2 = C.exp (C.sub (C.mul {C.re=0.;im= -1.} chi) {C.re=im;im=0.}) in
    let cs = C.div (C.add e1 e2) {C.re=2.;im=0.} and sn = C.div (C.sub e1 e2) {C.re=0.;im=2.} in
    let r = C.sub (C.mul !pq cs) (C.mul !qq sn) in Cx.CFin(r.C.re,r.C.im) end
