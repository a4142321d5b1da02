# Formal model of rockphypy in Coq 8.16

## Trusted base

- Coq's kernel (8.16.1), with no kernel check switched off.
- The axioms that `Print Assumptions` lists under each property theorem (`P_*.v`). They all
  belong to the standard library: `ClassicalDedekindReals.sig_forall_dec`,
  `FunctionalExtensionality.functional_extensionality_dep` (any theorem about `R`), and, where
  derivatives or integrals are used, `ClassicalDedekindReals.sig_not_dec` and
  `Classical_Prop.classic`. No axiom is added by this development. Listings may also show the
  opaque constants of the standard library's module-sealed definitions (`RbaseSymbolsImpl.*`,
  `RinvImpl.*`, ssreflect `Under_rel.*`), which are definitions sealed by a signature, not axioms.
- My reading of the Python source. Nothing is executed here; every definition in an `M_*.v`
  file cites the file and lines it models.
- Exact real arithmetic. The models compute over `R`: no rounding, no overflow, no underflow. Rounding is the subject of C81 (`M_Round.v`), IEEE double precision with overflow and underflow of C86 (`M_Double.v`).
  What is modelled of IEEE floats is how a value leaves the finite numbers (`Fl.v`):
  `Fin r | Inf | NaN | Und | Exc e`. `Inf` does not track its sign. `Und` means "no claim".
- A power with a negative base is finite for an integral exponent; otherwise it is NaN (NumPy) or
  `Und` (Python would return a complex number).
- Functions that are elementwise are modelled on scalars. For about eighty of them `M_Array.v` models the call with arrays too
  (broadcasting in one dimension, mixtures of numbers and arrays) and C79 proves that it acts element by element; `M_Grid.v`
  does two dimensions and the functions that return tables (C80). For the rest this is an assumption. Functions whose behaviour depends on the array (masks, concatenation, dot products,
  in-place writes) are modelled on lists.
- `mode` says whether scalar arithmetic is Python float (division by zero raises
  ZeroDivisionError) or NumPy (division by zero gives inf/nan). Theorems quantify over it.
- Library calls with no closed form (`fsolve`, `odeint`, `np.roots`, Bessel functions, general
  `np.linalg.inv`) are parameters of the statement, with the assumed behaviour as an explicit
  hypothesis of the theorem.

## Layout

| files | content |
|---|---|
| `Fl.v` | value domain, exceptions, evaluation lemmas |
| `Cx.v` | complex numbers `CFin re im` or `CUnd` (no claim), principal square root, exp |
| `M_*.v` | the model, one file per Python module, statement by statement |
| `Spec.v`, `Spec2.v` ... `Spec29.v` | independent specifications (means, Walpole form, tensor rotation, Christoffel, contact mechanics, polynomial roots, Riemann integrals, interface conditions, loading paths, dimensions and units, continuity, ...) |
| `L_*.v` | proofs |
| `P_*.v` | property theorems with their final proof steps, `Print Assumptions`, examples |

## Conventions

- `_refuted`: the claim is false of the faithful model; a witness is proved.
- `_partial`: only part of the property is proved; the missing part is stated beside it.
- Beside each theorem an `Example` shows that its hypotheses can be met.

## Not modelled

- Every function of the package is modelled. For the five figures of `QI.py` the model is the list of curves, marks and
  maps that matplotlib is asked to draw; styles, labels, limits and rendering are not modelled, and the density estimator
  of the `kde_diffusion` package is an arbitrary function.
- Docstrings, printed messages and warnings. Overflow, underflow and rounding outside the claims of C81 and C86. The `examples`, `docs` and `test` folders.

## A check of the reading of the source

`tools/conformance/run.sh` extracts the model to OCaml with `R` replaced by floating-point numbers (and Newton, Runge-Kutta and
Gauss-Jordan for `fsolve`, `odeint`, `inv`) and compares it with the values recorded in `/repo/pytest`: 82 of 83 comparisons
agree to the tests' own tolerance (1e-6). The one that does not is `test_Berryman_DEM`; C77 proves that its recorded value is not
the solution of the equations in the pinned source. This is evidence that the model says what the code says; no theorem and no
manifest claim rests on it.

## Properties: what is modelled and how it is proved

- **C01** Velocity/moduli conversion is a round trip. closed-form evaluation, sqrt algebra
- **C02** Poisson ratio and Lame constant are the ones of the isotropic solid. evaluation + field/nra
- **C03** Stiffness matrix writers produce the symmetry class they are named after. Spec.v: 4th-rank tensor from Voigt matrix, rotation of all 81 components; polynomial identities modulo c^2+s^2=1
- **C04** VTI compliance matrix is the inverse of the VTI stiffness matrix. matrix product over R, field
- **C05** Velocity measurements determine the VTI stiffness. evaluation at the three angles, sqrt algebra
- **C06** Crack porosity and crack density are proportional. evaluation; volume integral of spheroids (`Spec15.v`, `P_Exact.v`)
- **C07** Voigt >= Hill >= Reuss, all between the softest and stiffest phase. induction on the phase list; Cauchy-Schwarz/Jensen by induction
- **C08** A phase with zero modulus makes the Reuss average vanish. induction on the list in the inf-aware domain
- **C09** Critical porosity model. evaluation
- **C10** Hashin-Shtrikman formulas are the Hashin-Shtrikman-Walpole bounds. Spec.v Walpole form; evaluation by field; monotonicity of the Walpole mean in z
- **C11** HS on equal phases. evaluation in the inf-aware domain
- **C12** Eshelby-Cheng reduces to the background and is affine in porosity. evaluation
- **C13** Hudson aligned cracks. evaluation; tensor permutation
- **C14** Randomly oriented cracks are the orientation average of aligned cracks. Spec.v isotropic projection of a stiffness matrix; evaluation; refutation
- **C15** Three orthogonal crack sets reduce to a single aligned set. evaluation
- **C16** Cone-distributed cracks. evaluation; azimuthal average of the rotated single-crack compliance correction
- **C17** Berryman self-consistent solution lies between the phases. fsolve as oracle with the residual-zero hypothesis; weighted sum argument by induction
- **C18** PQ_vectorize leaves its arguments unchanged. explicit store model of the array
- **C19** Inclusions identical to the host have P=Q=1. evaluation, field with theta,f abstract
- **C20** Spherical pores: Swiss cheese and self consistent iteration. induction on iter_n; uniqueness through the ratio of the moduli (`P_Exact.v`)
- **C21** Cracked-rock approximations. evaluation; derivative at 0
- **C22** O'Connell-Budiansky fluid model. fsolve as an oracle
- **C23** SC_dilute / SC_flex endpoints. induction on iterations
- **C24** Mori-Tanaka average is a weighted mean. convex combination lemma
- **C25** Gassmann consistency. evaluation; field; nra
- **C26** Fluid substitution round trip and composition. Spec ratio form M/(K0-M) injective
- **C27** Velocity versions of Gassmann agree with the moduli version. evaluation
- **C28** Brie fluid mixing. Rpower monotonicity
- **C29** Biot/Geertsma-Smit velocity limits. quadratic-form (Rayleigh) argument for the roots; complex square root by cases; epsilon-delta low-frequency limit
- **C30** Brown-Korringa anisotropic fluid substitution. linear inverse as specified oracle; field
- **C31** Mavko-Jizba squirt. evaluation
- **C32** Anisotropic squirt follows the crack decomposition. evaluation; the decomposition is stated on fourth-rank tensors and reduced to five equations; refute if false
- **C33** White-Dutta patchy saturation. explicit complex arithmetic; closed forms of both impedances in cosh, cos, sinh, sin with signs by convexity; limits by repeated integration of the quotients (low frequency) and a growth bound (high frequency); Spec13.v states the diffusion problem, solved by Green's identity against reference solutions
- **C34** Thomas-Stieber porosity model. evaluation; nra
- **C35** silty_shale / shaly_sand endpoints. Walpole form; refutation
- **C36** Hertz-Mindlin and Walton agree; cube-root pressure law. Rpower algebra
- **C37** softsand/stiffsand are the HS bounds between mineral and Hertz-Mindlin pack. Walpole monotonicity
- **C38** Contact cement model. evaluation against the published fits (Spec3); monotonicity of the quadratic fits from power bounds
- **C39** constantcement and MUHS. Walpole form
- **C40** Digby model root selection. cubic monotone on [0,inf); oracle for np.roots
- **C41** Norris-Johnson. Riemann integrals in Spec4 and Spec10 with closed forms, exact error term of the code; refutations by bounds on the logarithm
- **C42** Patchy cement model. Walpole form and monotonicity; list model of `diluting`
- **C43** Gas and CO2 properties. Coquelicot derivative of the compressibility factor; bounds on exp; refutation
- **C44** Water and brine. evaluation; polynomial bounds on a box
- **C45** Oil and live oil. evaluation; monotonicity of real powers; refutation
- **C46** CO2/brine mixture endpoints. weighted mean inequalities
- **C47** Kozeny-Carman family. monotonicity
- **C48** Panda-Lake reduces to Kozeny-Carman. evaluation
- **C49** Permeability should grow with grain size. monotonicity; refutation
- **C50** Reflection coefficients vanish for identical media, change sign on swapping. evaluation; list maps; refutation for AVO_abe
- **C51** zoeppritz. the four continuity conditions (Spec8) solved by elimination, determinant nonzero by energy balance; evaluation of the code at every angle; refutations with witnesses
- **C52** Aki-Richards / Shuey consistency. evaluation against Spec5; derivative of the exact coefficients at zero contrast and limit of the converted wave (Coquelicot)
- **C53** Elastic impedance. list model; Rpower algebra; series bound on the logarithm
- **C54** Azimuthal AVO consistency. evaluation against Spec5.ruger; lists of angles and azimuths
- **C55** Thomsen and Tsvankin parameters. evaluation
- **C56** Backus average. induction on layers; Cauchy-Schwarz
- **C57** Phase velocities solve the Christoffel equation. Christoffel determinant
- **C58** Bond rotation. matrix algebra; refutation; the 6x6 matrix represents the 3x3 rotation on pairs of axes iff sin 2theta = 0
- **C59** Empirical trends. evaluation; monotonicity of real powers and logarithms; refutations
- **C60** Segmented trends and the order of the depths. boolean masks as list filters; permutations; sorted lists
- **C61** St Peter sandstone. evaluation; bounds on exp
- **C62** Matrix of a cemented shaly sand. weighted means, evaluation; refutations
- **C63** Cement-volume estimation. induction on logs and seeds, maximum/minimum of filtered lists; Walpole bounds for the lines; refutations
- **C64** Screening bounds and normalisation. row invariant through the list of porosities; Walpole composition and monotonicity; large-stress refutation
- **C65** An empty pore amplifies strain. sphere formulas; prolate witness by interval bounds on cosh; inversion of the prolate evaluation, limits as the aspect ratio tends to 1
- **C66** Permeability from logs. Rpower monotonicity; refutation
- **C67** Bloch. monotonicity; refutation of the units
- **C68** Rock physics template. Wood mixture, strict monotonicity of Gassmann's modulus; dry-limit refutation
- **C69** P and Q are the strain concentration factors of Eshelby's tensor. Spec7.v states the equivalent-inclusion problem; 2x2 Cramer on the axisymmetric part; trigonometric bounds on theta give positive denominators; limits by squeezing; Spec12.v states the potential integral, proved with explicit antiderivatives and unique as a limit
- **C70** Template figure. points from C68 lifted to the grid by list lemmas; order kept by the strict monotonicity in saturation; refutation for falling saturations
- **C71** Diagnostic figures. list lemmas about the drawn curves; NaN masks; normalisation and transposition of the density; refutations
- **C72** Cement estimates of a data set. induction on the logs, unequal lengths included
- **C73** Gassmann, Hashin-Shtrikman, Reuss and self-consistent. both bounds written as Walpole's average; field identities; monotonicity in Walpole's z for the fixed points
- **C74** Layers with equal shear and thin cracks. linearity of the layer average; Eshelby's tensor divided by the aspect ratio extends continuously to 0, where its value is Hudson's
- **C75** Thomsen's parameters and exact VTI velocities. product formula for the larger Christoffel root; explicit remainder; parity of sine and cosine
- **C76** What the shape of an inclusion does. `P_Shape.v` (lemmas in `L_Shape.v`): PQ at every oblate aspect ratio lies between the sphere's and the disc's factors when both contrasts have one sign, with the disc as limit; with contrasts of opposite sign the sphere's bulk factor is the largest. From this, by comparison along the differential equation, every exact solution of the differential scheme lies within the Hashin-Shtrikman bounds returned by `HS` (pores: below the stiff bound and above Reuss), is Hill's modulus for equal shear, and empty spheres move Poisson's ratio towards 1/5. Roots of the self-consistent residual lie within the Hashin-Shtrikman-Walpole bounds for any number of phases. Exact solutions and a two-phase root (by the intermediate value theorem) show the hypotheses are met.
- **C77** Well-posedness of the differential scheme. `P_Dem.v`: Picard existence (`L_Ode.v`, `L_Dem2.v`), Gronwall uniqueness and continuation (`L_Dem.v`), restart, scaling, decay towards the inclusion and the closed form for empty spheres (`L_Dem3.v`); `Spec14.v` states initial value problems, the solver and the grid.
- **C78** Existence of a self-consistent solution. `P_SelfCons.v`: Poincaré–Miranda in the plane (`L_Miranda.v`) and the signs of the residuals on the sides of the box of the phases' moduli (`L_SelfCons.v`); few pores leave a root and many pores leave none (`L_SelfCons2.v`).
- **C79** Calls with arrays. `M_Array.v` gives programs of assignments a meaning on numbers and one on arrays; `M_ArrayFns.v` reads the programs off the models, `L_ArrayFns.v` proves them equal to the models, and `L_Array.v` relates the two meanings for every program by induction. `P_Array.v`; `Spec16.v` states elements, lengths and shapes.
- **C80** Tables. `M_Grid.v` runs the programs of `M_Array.v` on arrays of two dimensions (a shape and an element function) and models `newaxis`, `meshgrid` and the mean over a column. `L_Grid.v` proves soundness, shapes and the exact failure by induction on programs; `L_GridFns.v` reads the four functions as programs. `P_Grid.v`; `Spec17.v`.
- **C81** Rounding errors. `M_Round.v` gives the programs of `M_Array.v` a third meaning, a relation in which every operation has an arbitrary relative error of at most u. `L_Round.v` proves convergence to the exact results by induction on programs and continuity of each operation; `L_RoundRel.v` counts factors 1-u through products, quotients, roots, powers, sums and bounded cancellation; `L_RoundFns.v` and `L_RoundFns2.v` apply it. Overflow and underflow are not modelled. `P_Round.v`; `Spec18.v`.
- **C82** Layered media. `Spec19.v` defines the energy of a strain field in a stack of layers. `L_Layers.v` completes squares layer by layer: the energy of each layer is a function linear in its strain plus squares that vanish when all layers carry the same stress. Bounds and monotonicity follow from the minimum; the signs of Thomsen's parameters from a weighted Cauchy-Schwarz inequality and its case of equality. `P_Layers.v`.
- **C83** Stiffer constituents. `L_Stiffer.v` writes each modulus as a composition of functions that increase in every argument (Walpole means, cube roots, the self-consistent step by induction on rounds); the shear modulus of a grain pack and Gassmann in the mineral modulus need a factorisation of the difference. `P_Stiffer.v`.
- **C84** Units. `Spec20.v` defines dimensions (rational exponents of length, mass, time) and changes of units. `L_Units.v` gives every array program a type of dimensions and proves by induction on programs that a well-typed program commutes with every change of units, including its branches and exceptions; `L_Units2.v` does the same for lists, matrices and complex numbers. `L_UnitsFns*.v` apply this function by function, through loops, solvers and meshes; `L_UnitsRef.v` evaluates the functions that are not well typed. Regressions with fixed units (empirical laws, Batzle-Wang, thin-film fits) have no such property and are left out; constants that convert units (1000 in `V`, 1e-3 in the packs) are kept as pure numbers. `P_Units.v`.
- **C85** Continuity. `Spec21.v` defines continuity and robustness by tolerances on lists of numbers. `L_Cont.v` proves that every operation of the value domain preserves limits and that a result that is a number stays one (the exceptions are powers with base and exponent zero, and square roots at zero for robustness). `L_ContProg.v` lifts this by induction to array programs, including tests whose two branches agree where the test changes. `L_ContFns*.v` apply it function by function; at the cement threshold and at zero shale the branches are shown to agree. `L_ContList.v` does averages of any length; `P_Cont.v`.
- **C86** Double precision. `M_Double.v` runs the programs of `M_Array.v` on Flocq's binary64 numbers. `L_Double.v` proves, operation by operation, that a result in range is finite and has a relative error of at most 2^-53, and infers ranges (smallest and largest binary exponent, sign) of every intermediate value from the ranges of the arguments; so the run is one of C81's runs, and its bounds apply. `P_Double.v`; `Spec22.v`. Flocq is used as a library of definitions and lemmas; it has no axioms of its own.
- **C87** Arrays of the caller. `M_Store.v` gives the programs a semantics in which arrays are objects in a store, names are references and masked assignment changes an array in place; a session is a list of calls, new arrays and assignments. `L_Store.v` computes for a program which arguments it may change and which results may be arguments, and proves the analysis sound by a simulation; `L_StoreFns.v` and `L_StoreFns2.v` run the functions that assign in place, also where they raise, and compare them with `M_EM.v`, `M_GM.v`, `M_Emp.v`, `M_QI.v`. `P_Store.v`; `Spec23.v`.
- **C88** Whole numbers. `M_Int.v` gives the programs a semantics with Python integers of any size and 64-bit integer arrays that wrap around; `M_IntFns.v` adds to each program which literals and reciprocals are integers. `L_Int.v` bounds the absolute values of all integers of a run and proves that within 64 bits the run agrees with the run on floats. The text of the literals is left open within `a_text_of` (`Spec24.v`), so the claim does not rest on the annotation. `P_Int.v`.
- **C89** Missing samples. `Spec25.v` says what it means that a gap shows. `L_Gap.v` relates the run with the gap to the run with the gap filled: each operation either passes nan on or ignores the operand; for programs with tests an analysis shows that the tested values either do not depend on the argument or are missing with it. `P_Gap.v`.
- **C90** Reading curves backwards. `Spec26.v`: one-to-one onto the stated range, with close values for close arguments only. `L_Invert.v` derives it from strict monotonicity and continuity (C85) by the intermediate value theorem, on intervals with or without their ends. `P_Invert.v` gives each curve its exact range, and proves three curves unreadable.
- **C91** Lists. `M_List.v` gives the programs a semantics with Python lists, which `+` joins, an integer repeats, NumPy functions and arrays convert, and everything else rejects; where NumPy versions differ a call has several outcomes. `L_List.v` follows through a program which values are lists and which of those no longer stand for their array; `P_List.v` runs it on every combination of argument kinds. QI.matrix_modulus is left out: it stacks its arguments with np.array and np.vstack, which treat lists in another way.
- **C92** Picking samples. `Spec28.v`: a selection of samples, a cut, a join. `L_Pick.v`: induction on the program; picking commutes with every operation on arrays of one length. The arrays all have the same length (one-element arrays stand for numbers in C79). `P_Pick.v`: any selection, permutations, cuts and joins; matrix_modulus refuted.
- **C93** Python and NumPy floats. `Spec29.v`: equal up to a complex result; formulas that divide by literals only. `L_Modes.v`: induction on the program with the relation `ref` of `L_Array.v`; a value of NumPy is never an exception, a Python one only ZeroDivisionError. `L_ModesArr.v`: the same for arrays with Python or NumPy numbers beside them. `P_Modes.v`: same results, the exceptions, nineteen indifferent functions; "NumPy shows inf or nan where Python raises" refuted with HS. Bit-level rounding is outside the model in both modes.
