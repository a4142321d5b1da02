{
 "C01": "Both directions, units included.",
 "C02": "Range, relation to K/G, agreement with velocities, exact failure set.",
 "C03": "Symmetry class stated through invariance of the fourth-rank tensor.",
 "C04": "Whole inverse from five of its entries; existence shown.",
 "C05": "Round trip through the exact phase velocities.",
 "C06": "Closed form for every input, and its derivation from the volume of the cracks.",
 "C55": "First-order Taylor expansion of the exact velocities; isotropic and VTI reductions.",
 "C56": "Layered-medium response, invariances, stability, log front end.",
 "C57": "Eigenvalues of the Christoffel matrix, with multiplicity, and mode labels; isotropic media.",
 "C58": "The property as a user expects it is false of the code; the angles at which it holds are characterised exactly, and C58_bond_formula gives the result at every angle.",
 "C07": "Any number of phases, by induction on the list.",
 "C08": "Zero modulus with positive and with zero fraction; the natural claim is refuted.",
 "C09": "All inputs with phic>0; the zero denominator separately.",
 "C10": "Identity with the Walpole form, ordering, ends, symmetry, monotonicity.",
 "C11": "Both arithmetic modes, one or both moduli equal.",
 "C12": "Eigenstrain equation as the specification; C11 refuted with the exact extra term.",
 "C13": "Whole tensor, both orders, both axes.",
 "C14": "Exact factor; refuted for every crd != 0.",
 "C15": "Whole tensor.",
 "C16": "Whole tensor against the circle mean; refuted for every non-zero crd and cone angle.",
 "C17": "fsolve is not modelled: the theorems speak about the residual that fsolve is given.",
 "C18": "Exact condition and the witness.",
 "C19": "All aspect ratios for equal shear moduli, oblate and spherical ones in general; the ODE solver is an oracle assumed exact.",
 "C20": "All iteration counts, the limit, and uniqueness of the solution.",
 "C21": "Strict monotonicity, first-order agreement, thin-spheroid limit.",
 "C22": "fsolve is a parameter.",
 "C23": "Including the fixed-point equations.",
 "C24": "Including the identity with Hashin-Shtrikman.",
 "C65": "Witness at aspect ratio 221/220; C65_prolate_is_eshelby_refuted and C65_prolate_tends_to_sphere_refuted state the cause for every prolate spheroid.",
 "C25": "Undrained test stated in Spec.",
 "C26": "Composition assumes only that the two substitutions return numbers.",
 "C27": "Units as documented in the code.",
 "C28": "All exponents e>0.",
 "C29": "Bessel function is an arbitrary parameter; low-frequency limit needs the sign condition biot_branch > 0 (met by ordinary rocks), which decides which root is called fast.",
 "C30": "numpy.linalg.inv is a parameter assumed only to invert invertible matrices; such a function is shown to exist.",
 "C31": "",
 "C32": "Volumetric part proved; agreement with the crack decomposition and preservation of isotropy refuted with the exact conditions.",
 "C33": "Includes that no division by zero occurs (both impedances have positive real part). Exact reals: the overflow of exp at very high frequency in floating point is outside the model.",
 "C34": "",
 "C35": "",
 "C36": "",
 "C37": "",
 "C38": "Published fit coefficients are in Spec3.",
 "C39": "",
 "C40": "np.roots is a parameter assumed to return the complex roots of the polynomial (with multiplicity). Array-valued stress is not modelled.",
 "C41": "Theory's integrals are Riemann integrals in Spec4 (moduli) and Spec10 (stresses along a loading path).",
 "C42": "The model is elementwise in alpha.",
 "C50": "",
 "C51": "The boundary-value problem is solved and proved unique; the function's deviation from it is stated as an exact formula and refuted by an explicit pair of layers.",
 "C52": "",
 "C53": "",
 "C54": "C54_hti is the evaluation against Spec5.ruger; planes, normal incidence and isotropy are consequences. C54_orthorhombic_planes pins AVO_ortho.",
 "C47": "",
 "C48": "",
 "C49": "",
 "C66": "",
 "C67": "",
 "C43": "Derivatives as derivable_pt_lim; reduced-temperature window 0.85-4.",
 "C44": "Evaluation for all reals; inequalities on 0-100 C, 0-100 MPa.",
 "C45": "Velocity and density formulas in Spec5; heavy oil refuted.",
 "C46": "Both values of bw, all saturations.",
 "C59": "Every scalar function of Emp.py.",
 "C60": "Lists of any length; exact condition for order preservation; three refutations.",
 "C61": "All integers as sample number.",
 "C62": "Two refutations: density without cement, and vsh > 1 - phi_c.",
 "C63": "Logs and seeds of any length; end-to-end example with two lines bounded by hand; refutations.",
 "C64": "Row-by-row description of the whole table, totality, ordering under a stated condition and its refutation for large stress.",
 "C68": "Numeric part of plot_rpt; C70 describes the figure.",
 "C69": "Oblate and spherical shapes; Spec12.v states the improper integral. The prolate branch of the code computes theta with 1/cosh in place of arccosh; C65 treats it.",
 "C73": "Exact identities and inequalities between functions of EM.py and Fluid.py.",
 "C74": "C11 of Eshelby_Cheng does not tend to Hudson's value (C74_thin_crack_c11_refuted), a consequence of the extra term stated in C12.",
 "C75": "Exact identities and a fourth-order Taylor bound with explicit constant.",
 "C76": "L_Shape.v writes P and Q as reciprocals of the eigenvalues of the concentration tensor: F2 = h F1 - e (theta - 2/3)^2 gives the bulk factor, an arithmetic-harmonic mean inequality and a chord (majorisation) argument give the shear factor at both ends. Comparison along the differential equation uses the invariant (1/(K+z) - 1/(Ki+z))/(1-t). The theorems on the differential scheme quantify over exact solutions, not over odeint's numerical output. The self-consistent theorem asks each phase to be softer or stiffer than the root in both moduli; for two phases this is derived.",
 "C77": "Existence: Picard iteration for a globally Lipschitz system of two equations (L_Ode.v), applied to the right-hand side clamped to a box that trajectories do not leave (L_Dem2.v); empty pores need the ratio G/(K+4G/3) and ln G as unknowns. Uniqueness: a Gronwall estimate with Lipschitz bounds of the 9 spheroid coefficients on boxes (L_Dem.v), then a continuation argument so that positivity need not be assumed. odeint's numerical error is outside the model: the theorem on Berryman_DEM assumes a solver that returns values of a solution and np.arange in exact arithmetic (Spec14.v).",
 "C78": "Existence by a two-dimensional Poincare-Miranda theorem proved from scratch (L_Miranda.v: label changes around grid squares, then compactness), applied to the residuals, which are Lipschitz on the box of the phases' moduli and point inwards on its four sides (L_SelfCons.v). Pores: bounds of the spheroid coefficients that are uniform in the medium's moduli (L_SelfCons2.v). The threshold beyond which there is no root is explicit but not sharp.",
 "C79": "Each function is read as a program of assignments (a deep embedding generated from its model and proved equal to it for every input, C79_programs_*); NumPy's broadcasting is a second semantics of the same program, and the element-by-element theorems hold for every program. C79_tested_argument_refuted: an array of several elements cannot be the tested argument. Functions that add axes, build matrices, mask or iterate are not in the list (M_ArrayFns.v says which).",
 "C80": "Second, two-dimensional semantics of the same programs (M_Grid.v): shapes, stretching of dimensions of size 1, newaxis, meshgrid. The four functions' models (AVO_Aki_Richards, EM_Swiss_cheese, AVO_EI_ref, AVO_HTI) are proved to be the elements of the tables. *_refuted: mixing numbers and arrays.",
 "C81": "Third semantics of the programs of M_Array.v (M_Round.v): every operation returns its exact result with a relative error of at most u, chosen freely; no overflow or underflow. accurate/rounded (Spec18.v) count the error in units of u. *_refuted: cancellation in M_from_V.",
 "C82": "All clauses proved; the claim that P-waves are fastest along the layers is refuted.",
 "C83": "All clauses proved; stiffening in proportion to the grains is refuted.",
 "C84": "Every clause proved. Four functions are refuted: SC_dilute, Fredrich, johnson with path iso-uni, EI_ref with norm=False. Empirical regressions with fixed units are outside the claim.",
 "C85": "Every clause proved. Two jumps are refuted: Brie at Sw = 0, e = 0 and matrix_modulus at vsh = 0 with M_sh = 0. Continuity is for real-number arithmetic; rounding is C81.",
 "C86": "Doubles and their operations are Flocq's binary64 (M_Double.v); Flocq adds no axiom. The C library and the reading of literals are parameters with stated accuracy (Spec22.v); C86_machine_exists shows that they can be met. Python's own OverflowError is not modelled. *_refuted: overflow in V, underflow in crack_por.",
 "C87": "Fourth semantics of the programs of M_Array.v, with a store of mutable arrays (M_Store.v). Of cst_vels the lines after the matrix density are run on arrays; the density is that of M_QI.v. Integer arrays and views are outside. *_refuted: the aspect ratios of PQ_vectorize and the shear moduli of Gassmann.",
 "C88": "Fifth semantics of the programs of M_Array.v, with Python integers and 64-bit integer arrays (M_Int.v). One-dimensional arrays; numpy integer scalars count as arrays of one element. *_refuted: HS, the two high-frequency limits, overflow in hertzmindlin.",
 "C89": "A result the model leaves open (Und: powers with infinite operands, complex Python powers) counts as no number. Arrays for the 78 functions without a test; the seven with tests for single samples. *_refuted: normalize, EI_ref with norm, estimate_cem, diluting (see also C60 for the segmented velocity trends).",
 "C90": "Exact ranges with their ends; the arithmetic is exact (C81, C86 for rounding). Soft and stiff sand, constant cement and MUHS assume the end member softer than the grains, contact cement the range of its fits (as C37-C39). *_refuted: Vp against saturation, velocity of a suspension, the segmented velocity trend.",
 "C91": "84 of the 85 programs of C88 (not QI.matrix_modulus). Lists of floats, one-dimensional arrays. A NumPy number next to a list may raise TypeError or take the list as an array; both are covered. *_refuted: poi with an array and a list.",
 "C92": "The programs of C79_straight, run on arrays of one common length and numbers. *_refuted: matrix_modulus, because of its test.",
 "C93": "Any program of M_Array's language, run on numbers that are not exceptions. Und stands for Python's complex results. *_refuted: HS between equal phases."
}