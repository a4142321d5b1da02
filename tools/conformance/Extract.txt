From Coq Require Import Reals ZArith.
From Coq Require Extraction.
From Coq Require Import ExtrOcamlBasic ExtrOcamlNatInt ExtrOcamlZInt ExtrOcamlString.
From Verif Require Import Fl Cx M_Utils M_EM M_Anis M_AVO M_Fluid M_BW M_Emp M_GM M_Perm M_QI M_Plot.
Extract Constant RbaseSymbolsImpl.R => "float".
Extract Constant RbaseSymbolsImpl.R0 => "0.".
Extract Constant RbaseSymbolsImpl.R1 => "1.".
Extract Constant RbaseSymbolsImpl.Rplus => "(+.)".
Extract Constant RbaseSymbolsImpl.Rmult => "( *.)".
Extract Constant RbaseSymbolsImpl.Ropp => "(~-.)".
Extract Constant RinvImpl.Rinv => "(fun x -> 1. /. x)".
Extract Constant Rdiv => "(/.)".
Extract Constant Rminus => "(-.)".
Extract Constant IZR => "float_of_int".
Extract Constant INR => "float_of_int".
Extract Constant pow => "(fun x n -> x ** float_of_int n)".
Extract Constant powerRZ => "(fun x n -> x ** float_of_int n)".
Extract Constant Rpower => "( ** )".
Extract Constant sqrt => "Stdlib.sqrt".
Extract Constant exp => "Stdlib.exp".
Extract Constant ln => "Stdlib.log".
Extract Constant sin => "Stdlib.sin".
Extract Constant cos => "Stdlib.cos".
Extract Constant tan => "Stdlib.tan".
Extract Constant asin => "Stdlib.asin".
Extract Constant acos => "Stdlib.acos".
Extract Constant atan => "Stdlib.atan".
Extract Constant cosh => "Stdlib.cosh".
Extract Constant sinh => "Stdlib.sinh".
Extract Constant PI => "(4. *. Stdlib.atan 1.)".
Extract Constant Rmax => "Stdlib.max".
Extract Constant Rmin => "Stdlib.min".
Extract Constant Rabs => "Stdlib.abs_float".
Extract Constant Req_EM_T => "(fun (x:float) y -> x = y)".
Extract Constant Rlt_dec => "(fun (x:float) y -> x < y)".
Extract Constant Rle_dec => "(fun (x:float) y -> x <= y)".
Extract Constant Rgt_dec => "(fun (x:float) y -> x > y)".
Extract Constant Rge_dec => "(fun (x:float) y -> x >= y)".
Extract Constant Int_part => "(fun x -> int_of_float (floor x))".
Extract Constant up => "(fun x -> 1 + int_of_float (floor x))".


Extract Constant RbaseSymbolsImpl.Rabst => "(fun _ -> assert false)".
Extract Constant RbaseSymbolsImpl.Rrepr => "(fun _ -> assert false)".
Extract Constant ClassicalDedekindReals.sig_forall_dec => "(fun _ -> assert false)".
Separate Extraction Fl Cx M_Utils M_EM M_Anis M_AVO M_Fluid M_BW M_Emp M_GM M_Perm M_QI.
