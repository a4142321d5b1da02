{"id": "C01", "title": "Velocity/moduli conversion: plane-wave speeds and round trip", "statement": "V returns 1000 times the speeds of plane waves in an isotropic solid, in every direction: one P wave polarised along it and two S waves across. M_from_V(rho, *V(K,G,rho)) returns (K,G), and V(*M_from_V(rho,vp,vs), rho) returns (vp,vs), units included (GPa, g/cc, m/s).", "quantifier": "all K,G >= 0 and rho > 0; all vp,vs >= 0 with a non-negative P-modulus", "why_tests_cant": "The inputs are continuous; a test samples a few points and any coefficient, sign or swapped-argument slip that vanishes at those points passes.", "anchors": ["rockphypy/utils.py: utils.V, utils.M_from_V"]}
{"id": "C02", "title": "Poisson ratio and Lame constant are the ones of the isotropic solid", "statement": "poi(K,G) lies strictly between -1 and 1/2 for positive moduli, K and G are recovered from (nu,G) and (lambda,G), and the ratio agrees with the velocity formula. For moduli of any sign poi returns (3K-2G)/(2(3K+G)) whenever 3K+G is not 0, and fails exactly when it is 0 (ZeroDivisionError for Python floats).", "quantifier": "all K,G", "why_tests_cant": "The claim is an inequality over a continuum of inputs; sampling cannot exclude a violating point between the samples.", "anchors": ["rockphypy/utils.py: utils.poi, utils.lame, utils.V"]}
{"id": "C03", "title": "Stiffness matrix writers produce the symmetry class they are named after", "statement": "write_VTI_matrix is invariant under every rotation about axis 3, write_HTI_matrix under every rotation about axis 1, write_iso under all coordinate-axis rotations, all are symmetric 6x6 matrices; write_iso(K,G) has bulk modulus K and shear modulus G; the VTI and HTI forms coincide with the isotropic one on isotropic constants and with each other after exchanging axes 1 and 3.", "quantifier": "all stiffness constants and all rotation angles", "why_tests_cant": "Invariance is quantified over a continuous group of rotations.", "anchors": ["rockphypy/utils.py: write_VTI_matrix, write_HTI_matrix, write_iso, write_matrix"]}
{"id": "C04", "title": "VTI compliance matrix is the inverse of the VTI stiffness matrix", "statement": "write_VTI_compliance filled with the inverse-matrix entries of write_VTI_matrix gives a product equal to the identity.", "quantifier": "all invertible VTI stiffnesses", "why_tests_cant": "The inputs are continuous; a test samples a few points and any coefficient, sign or swapped-argument slip that vanishes at those points passes.", "anchors": ["rockphypy/utils.py: write_VTI_compliance, write_VTI_matrix"]}
{"id": "C05", "title": "Velocity measurements determine the VTI stiffness", "statement": "Feeding v_to_c_VTI with the velocities that vel_azi_VTI predicts at 0, 45 and 90 degrees returns the original stiffness matrix.", "quantifier": "all VTI stiffnesses with C44 < C11, C44 < C33, C13+C44 >= 0, C44,C66>=0 and density > 0", "why_tests_cant": "The inputs are continuous; a test samples a few points and any coefficient, sign or swapped-argument slip that vanishes at those points passes.", "anchors": ["rockphypy/utils.py: v_to_c_VTI", "rockphypy/Anisotropy.py: vel_azi_VTI"]}
{"id": "C06", "title": "Crack porosity and crack density are proportional", "statement": "crack_por(crd,alpha) is 4/3*pi*alpha*crd. For any number of spheroidal cracks of one aspect ratio and any radii, it is their total volume (the integral of the section areas) divided by the rock volume, when crd is the sum of the cubed radii over the rock volume.", "quantifier": "all crd, alpha; any number of cracks", "why_tests_cant": "The inputs are continuous; a test samples a few points and any coefficient, sign or swapped-argument slip that vanishes at those points passes.", "anchors": ["rockphypy/utils.py: crack_por"]}
{"id": "C07", "title": "Voigt >= Hill >= Reuss, all between the softest and stiffest phase", "statement": "VRH returns the arithmetic and harmonic volume-weighted means and their average; min M <= Reuss <= Hill <= Voigt <= max M, with equality for equal phases, independent of phase order.", "quantifier": "any number of phases, any non-negative fractions summing to 1, any positive moduli", "why_tests_cant": "The number of phases is unbounded and the fractions continuous.", "anchors": ["rockphypy/EM.py: EM.VRH"]}
{"id": "C08", "title": "A phase with zero modulus makes the Reuss average vanish", "statement": "If exactly one phase has modulus 0: with a positive fraction the Reuss average is 0 (through inf arithmetic, no exception), with fraction 0 it is NaN. So an absent phase of zero modulus spoils the average: 'absent phases do not matter' is refuted.", "quantifier": "any phase list with one zero modulus", "why_tests_cant": "Exercises inf propagation for every list length.", "anchors": ["rockphypy/EM.py: EM.VRH"]}
{"id": "C09", "title": "Critical porosity model", "statement": "cripor interpolates linearly from the mineral moduli at phi=0 to zero at phi=phic, preserving the K/G ratio, and raises ZeroDivisionError for phic=0; cripor_reuss returns the Reuss average of the moduli (or the mass balance density when den=True).", "quantifier": "all inputs", "why_tests_cant": "The inputs are continuous; a test samples a few points and any coefficient, sign or swapped-argument slip that vanishes at those points passes.", "anchors": ["rockphypy/EM.py: EM.cripor, EM.cripor_reuss"]}
{"id": "C10", "title": "Hashin-Shtrikman formulas are the Hashin-Shtrikman-Walpole bounds", "statement": "HS(...,'upper'/'lower') equals the independent Walpole form <1/(K_i+z)>^-1 - z for both moduli, hits the pure phases at f=0 and f=1, lower <= upper, both between Reuss and Voigt, monotone in f, and swapping the phases and the bound gives the same result.", "quantifier": "all f in [0,1], all K1>K2>0, G1>G2>0", "why_tests_cant": "The claim is an inequality over a continuum of inputs; sampling cannot exclude a violating point between the samples.", "anchors": ["rockphypy/EM.py: EM.HS"]}
{"id": "C11", "title": "HS on equal phases", "statement": "With K1=K2 or with G1=G2 the Python-float call raises ZeroDivisionError, while the NumPy call returns the common modulus (through 1/0=inf) and, for the other modulus, the Hashin-Shtrikman-Walpole value.", "quantifier": "all inputs with equal bulk or shear moduli", "why_tests_cant": "The inputs are continuous; a test samples a few points and any coefficient, sign or swapped-argument slip that vanishes at those points passes.", "anchors": ["rockphypy/EM.py: EM.HS"]}
{"id": "C12", "title": "Eshelby-Cheng against Eshelby's dilute solution", "statement": "For a fluid-filled oblate spheroid, the values Eshelby_Cheng returns for C33, C13, C44 and C66 are the dilute Eshelby result computed from the eigenstrain equation and Eshelby's tensor. C11 is not: it differs by a stated extra term (refuted with a witness). phi=0 gives the isotropic background, every entry is affine in phi, and the mat flag only changes the packaging.", "quantifier": "all K,G>0, aspect ratios in (0,1), fluid moduli different from K, porosities", "why_tests_cant": "The inputs are continuous; a test samples a few points and any coefficient, sign or swapped-argument slip that vanishes at those points passes.", "anchors": ["rockphypy/EM.py: EM.Eshelby_Cheng"]}
{"id": "C13", "title": "Hudson aligned cracks", "statement": "hudson returns the isotropic stiffness minus the crack loss built from the displacement discontinuity on a penny crack with the given normal, plus Hudson's second-order term when order=2, as an identity of all 81 tensor components. crd=0 gives the isotropic stiffness; to first order the strain energy decreases with crd for every strain; axis=1 is axis=3 rotated; an unsupported order or axis raises UnboundLocalError.", "quantifier": "all moduli, inclusion moduli, aspect ratios, crack densities; all integer order/axis", "why_tests_cant": "The inputs are continuous; a test samples a few points and any coefficient, sign or swapped-argument slip that vanishes at those points passes.", "anchors": ["rockphypy/EM.py: EM.hudson"]}
{"id": "C14", "title": "Randomly oriented cracks are the orientation average of aligned cracks", "statement": "hudson_rand's bulk modulus is the isotropic (orientation) average of first-order hudson. Its shear modulus is not: the change of shear modulus is 15 times the orientation average, so the two differ whenever crd is not 0.", "quantifier": "all inputs with crd*U != 0", "why_tests_cant": "The inputs are continuous; a test samples a few points and any coefficient, sign or swapped-argument slip that vanishes at those points passes.", "anchors": ["rockphypy/EM.py: EM.hudson_rand, EM.hudson"]}
{"id": "C15", "title": "Three orthogonal crack sets reduce to a single aligned set", "statement": "hudson_ortho subtracts the sum of the three crack losses, one per axis (all 81 tensor components). With one non-zero density it equals first-order hudson for that axis.", "quantifier": "all inputs", "why_tests_cant": "The inputs are continuous; a test samples a few points and any coefficient, sign or swapped-argument slip that vanishes at those points passes.", "anchors": ["rockphypy/EM.py: EM.hudson_ortho, EM.hudson"]}
{"id": "C16", "title": "Cone-distributed cracks", "statement": "Every entry of hudson_cone except C66 is the mean over the cone of crack normals of the single-crack loss; C66 carries an extra 3/2*crd*G*U3*sin^4. Hence the result is not transversely isotropic for any crd != 0 and any cone angle with non-zero sine. theta=0 gives hudson.", "quantifier": "all angles and inputs", "why_tests_cant": "The inputs are continuous; a test samples a few points and any coefficient, sign or swapped-argument slip that vanishes at those points passes.", "anchors": ["rockphypy/EM.py: EM.hudson_cone"]}
{"id": "C17", "title": "Berryman self-consistent solution lies between the phases", "statement": "Any exact root of the Berryman equations whose polarisation factors are positive lies between the smallest and largest phase moduli. When all phases share one shear modulus, the root is exactly Hill's formula, for every aspect ratio. A composite of one material has that material as a root. For phases of oblate or spherical shape the residuals are sum x (K_i-K) P_i and sum x (G_i-G) Q_i with P and Q from Eshelby's tensor in the effective medium, both positive, so every positive root lies between the phases' moduli unconditionally. Berryman_sc starts the solver from the arithmetic means of the moduli; whatever the solver, a positive root it returns from there lies between the phases. Evaluating the residual overwrites the caller's aspect ratios without changing later evaluations.", "quantifier": "any number of phases, any volume fractions, any aspect ratios", "why_tests_cant": "Unbounded phase count; root of a nonlinear system.", "anchors": ["rockphypy/EM.py: Berryman_sc, Berryman_func, PQ_vectorize"]}
{"id": "C18", "title": "PQ_vectorize leaves its arguments unchanged", "statement": "PQ_vectorize (hence Berryman_sc) overwrites entries equal to 1 in the caller's aspect-ratio array and nothing else; it returns the array unchanged exactly when no entry is 1.", "quantifier": "all alpha arrays containing 1", "why_tests_cant": "Aliasing bug visible only when the caller reuses the array.", "anchors": ["rockphypy/EM.py: PQ_vectorize"]}
{"id": "C19", "title": "Inclusions identical to the host have P=Q=1", "statement": "For an inclusion with the host's shear modulus PQ returns ((Km+4G/3)/(Ki+4G/3), 1) for every aspect ratio, so an identical inclusion gives (1,1) and a zero DEM derivative. With equal shear moduli, Hill's formula solves the DEM differential equation from the host at t=0 to the inclusion at t=1. For every oblate inclusion (1-t) K' = (Ki-K) P and (1-t) G' = (Gi-G) Q; along every exact solution the moduli move monotonically towards the inclusion's and never pass them, and Berryman_DEM returns that solution.", "quantifier": "all K,G>0 and all aspect ratios", "why_tests_cant": "The inputs are continuous; a test samples a few points and any coefficient, sign or swapped-argument slip that vanishes at those points passes.", "anchors": ["rockphypy/EM.py: PQ, DEM"]}
{"id": "C20", "title": "Spherical pores: Swiss cheese and self consistent iteration", "statement": "Swiss_cheese is 1/M = 1/Ms + phi*P/Ms with P,Q of an empty sphere, decreasing in phi. The SC iteration stays in (0,Ms], decreases with the iteration count and with porosity; for phi<1/2 it converges to the only positive solution of the self-consistent equations, for phi>=1/2 both moduli converge to 0 and the equations have no positive solution. One SC iteration gives the Swiss-cheese bulk modulus and a shear modulus not above it.", "quantifier": "all inputs, all iteration counts", "why_tests_cant": "The iteration count is unbounded.", "anchors": ["rockphypy/EM.py: Swiss_cheese, SC"]}
{"id": "C21", "title": "Cracked-rock approximations", "statement": "Dilute_crack and OConnell_Budiansky return the background at zero crack density and decrease strictly with it (the latter on [0,9/16], where both moduli reach 0 at 9/16); their first derivatives at zero crack density agree. Both formulas are the thin-crack limit of empty spheroids: with k, g the limits of 4/3 pi al P and 4/3 pi al Q as al -> 0, dilute cracks give 1/K = (1 + k c)/K0, and O'Connell-Budiansky give K0 (1 - k c) with k at the Poisson ratio nu0 (1 - 16 c/9).", "quantifier": "all Poisson-admissible moduli and crd >= 0", "why_tests_cant": "The claim is an inequality over a continuum of inputs; sampling cannot exclude a violating point between the samples.", "anchors": ["rockphypy/EM.py: Dilute_crack, OConnell_Budiansky"]}
{"id": "C22", "title": "O'Connell-Budiansky fluid model", "statement": "Whatever the solver returns, if it solves the first equation then the returned moduli have the solver's effective Poisson ratio. For Kf=0, D=1 solves the second equation, and with the dry effective Poisson ratio the result is OConnell_Budiansky's. crd=0 gives the background. A thin crack filled with fluid keeps the share D = 1/(1 + 4(1-nu^2)Kf/(3 pi (1-2nu) al K)) of the dry crack's compliance; the second equation is this relation with effective moduli except that one Poisson ratio is the background's, so at a root with fluid and cracks present the relation does not hold (refuted).", "quantifier": "all inputs", "why_tests_cant": "The inputs are continuous; a test samples a few points and any coefficient, sign or swapped-argument slip that vanishes at those points passes.", "anchors": ["rockphypy/EM.py: OConnell_Budiansky_fl, OC_R_funcs"]}
{"id": "C23", "title": "SC_dilute / SC_flex endpoints", "statement": "SC_dilute returns the dilute estimates built from PQ of a sphere, divided by the matrix moduli (so (1,1) at f=0, not moduli: the docstring is refuted); an unknown mode raises UnboundLocalError. One SC_flex pass is K0+f(Ki-K0)P with P of the current state, and a state left unchanged solves the two-phase self-consistent equations. With f=0 SC_flex returns the matrix after any positive number of passes and (Km,Km) after zero passes. For empty pores of a fraction below 2/5, not too large for the matrix's K/G contrast, every number of passes returns positive moduli below the matrix; refuted: positivity in general, one pass returns a negative shear modulus beyond f = 17/35 because the shear state starts from Km.", "quantifier": "all inputs, all iteration counts", "why_tests_cant": "The inputs are continuous; a test samples a few points and any coefficient, sign or swapped-argument slip that vanishes at those points passes.", "anchors": ["rockphypy/EM.py: SC_dilute, SC_flex"]}
{"id": "C24", "title": "Mori-Tanaka average is a weighted mean", "statement": "MT_average is the Walpole form with the reference of the matrix; with the matrix equal to phase 1 or 2 it is the upper or lower Hashin-Shtrikman expression; it returns the pure phases at f=1 and f=0 and stays between the phases and below Voigt.", "quantifier": "all f in [0,1], positive weights", "why_tests_cant": "The claim is an inequality over a continuum of inputs; sampling cannot exclude a violating point between the samples.", "anchors": ["rockphypy/EM.py: MT_average"]}
{"id": "C25", "title": "Gassmann consistency", "statement": "Gassmann returns the bulk modulus an undrained compression test on the fluid-filled rock measures, satisfies K_sat/(K0-K_sat) = K_dry/(K0-K_dry) + K_fl/(phi(K0-K_fl)), never touches G, lies strictly between K_dry and K0, increases with the fluid and the frame modulus, decreases with porosity, and tends to K_dry as the fluid becomes infinitely compressible.", "quantifier": "all 0<phi<=1, 0<=K_dry<K0, 0<K_fl<K0", "why_tests_cant": "The claim is an inequality over a continuum of inputs; sampling cannot exclude a violating point between the samples.", "anchors": ["rockphypy/Fluid.py: Gassmann"]}
{"id": "C26", "title": "Fluid substitution round trip and composition", "statement": "Gassmann_sub(A->B) equals Gassmann with fluid B applied to the dry rock that A saturates; substituting A->A is the identity; whenever A->B and A->C give numbers, A->B->C equals A->C (hence A->B->A is the identity); a stiffer fluid gives a stiffer rock. Gassmann_approx is the same map on P moduli. A rock as stiff as its mineral raises.", "quantifier": "all admissible rocks and fluids", "why_tests_cant": "Round trips over a continuum of rocks and fluids.", "anchors": ["rockphypy/Fluid.py: Gassmann_sub, Gassmann"]}
{"id": "C27", "title": "Velocity versions of Gassmann agree with the moduli version", "statement": "vels returns the velocities of the Gassmann modulus with the mass-balance density; feeding the velocities of the rock with fluid 1 to Gassmann_vels returns the velocities vels computes with fluid 2 (moduli in the unit density*velocity^2 has).", "quantifier": "all inputs", "why_tests_cant": "The inputs are continuous; a test samples a few points and any coefficient, sign or swapped-argument slip that vanishes at those points passes.", "anchors": ["rockphypy/Fluid.py: vels, Gassmann_vels", "rockphypy/utils.py: V"]}
{"id": "C28", "title": "Brie fluid mixing", "statement": "Brie returns K_gas at S=0, K_liquid at S=1, is strictly increasing in saturation, stays between the two moduli, is the Voigt average for e=1, below it for e>=1, and decreases with e.", "quantifier": "all saturations in [0,1], e>0", "why_tests_cant": "The claim is an inequality over a continuum of inputs; sampling cannot exclude a violating point between the samples.", "anchors": ["rockphypy/Fluid.py: Brie"]}
{"id": "C29", "title": "Biot/Geertsma-Smit velocity limits", "statement": "Biot_HF returns exactly the phase velocities of Biot's inertial two-phase system; the Gassmann velocity lies between its slow and fast velocity. Geertsma_Smit_HF squared is the sum of both squared. Geertsma_Smit_LF is the weighted mean of both squared limits with weights Vinf^2 f^2 and V0^2 fc^2, fc the Biot frequency, so it increases with frequency from V0 to Vinf; it raises at zero frequency. Whatever the full Biot model returns solves Biot's dispersion relations with Biot's viscosity factor (1 below 0.1, the Bessel-function ratio up to 1000, its asymptote beyond), and at low frequency it returns numbers that tend to the Gassmann velocities with vanishing attenuation while the slow wave stops.", "quantifier": "all admissible inputs and frequencies", "why_tests_cant": "The claim is an inequality over a continuum of inputs; sampling cannot exclude a violating point between the samples.", "anchors": ["rockphypy/Fluid.py: Biot, Biot_HF, Geertsma_Smit_HF, Geertsma_Smit_LF"]}
{"id": "C30", "title": "Brown-Korringa anisotropic fluid substitution", "statement": "dry2sat returns the compliance an undrained test on the anisotropic rock measures; dry2sat and sat2dry are mutually inverse; Brown_Korringa_sub returns stiffness and compliance of the rock re-saturated with the second fluid; for an isotropic frame the result is the compliance of the Gassmann-saturated rock; shear compliances are unchanged.", "quantifier": "all admissible compliance matrices", "why_tests_cant": "Matrix-valued round trip over continuous inputs.", "anchors": ["rockphypy/Fluid.py: Brown_Korringa_dry2sat, Brown_Korringa_sat2dry, Brown_Korringa_sub"]}
{"id": "C31", "title": "Mavko-Jizba squirt", "statement": "Mavko_Jizba returns the Gassmann modulus of the crack-free frame, a shear modulus with 1/G_uf-1/G_dry = 4/15(1/K_uf-1/K_dry), not softer than the dry one, and the velocities of these moduli.", "quantifier": "all admissible inputs", "why_tests_cant": "The inputs are continuous; a test samples a few points and any coefficient, sign or swapped-argument slip that vanishes at those points passes.", "anchors": ["rockphypy/Fluid.py: Mavko_Jizba"]}
{"id": "C32", "title": "Anisotropic squirt follows the crack decomposition", "statement": "Squirt_anisotropic reproduces the volumetric compliance of the unrelaxed rock. It should return the dry compliance less Mukerji and Mavko's fluid-sensitive part of the crack compliance, and an isotropic compliance for isotropic input. Refuted: the normal components solve the decomposition with a wrong parameter, the shear component uses S13 where S33 belongs; the result is the theory's only if d11=d12 and d13=d33 (S44 read as a tensor component), and isotropy is preserved only if the shear compliances already agree.", "quantifier": "all transversely isotropic compliance pairs with nonzero volumetric change and nonzero denominator", "why_tests_cant": "The inputs are continuous; a test samples a few points and any coefficient, sign or swapped-argument slip that vanishes at those points passes.", "anchors": ["rockphypy/Fluid.py: Squirt_anisotropic, Mavko_Jizba"]}
{"id": "C33", "title": "White-Dutta patchy saturation", "statement": "For every frequency, rock and pair of fluids White_Dutta_Ode returns a passive medium: a complex modulus with nonnegative loss whose real part does not exceed Hill's unrelaxed average, a positive velocity and a nonnegative attenuation that together satisfy the wave equation. Its modulus and velocity tend to Gassmann with the Wood fluid as the frequency goes to 0 and to Hill's average of the two Gassmann moduli as it goes to infinity, with vanishing loss. When both patches hold a fluid of the same modulus and density it returns the Gassmann modulus and velocity with zero attenuation at every frequency. At every frequency the inverse of the returned modulus is the compliance of White's composite sphere: every solution of the pressure-diffusion problem in the sphere and the sealed shell, with continuous total pressure and Darcy flux at the interface, has that compliance, and a solution exists.", "quantifier": "all frequencies and rocks", "why_tests_cant": "The inputs are continuous; a test samples a few points and any coefficient, sign or swapped-argument slip that vanishes at those points passes.", "anchors": ["rockphypy/Fluid.py: White_Dutta_Ode"]}
{"id": "C34", "title": "Thomas-Stieber porosity model", "statement": "For porosities and shale volume in [0,1] ThomasStieber returns the laminated line (1-v)a+vb and the dispersed boundary max(a-(1-b)v, bv), which lies between a*b and the laminated line; both meet the sand point at v=0 and the shale point at v=1, and the lowest point a*b is reached at v=a.", "quantifier": "all sand and shale porosities and shale volumes in [0,1]", "why_tests_cant": "The inputs are continuous; a test samples a few points and any coefficient, sign or swapped-argument slip that vanishes at those points passes.", "anchors": ["rockphypy/GM.py: ThomasStieber"]}
{"id": "C35", "title": "silty_shale / shaly_sand endpoints", "statement": "shaly_sand returns the Walpole mean of the clean sand and the clay-filled sand, hence the end members at C=0 and C=phis and values between them. silty_shale's shear modulus is the Walpole mean with both end members, and pure shale is returned at C=1; but its bulk modulus at C=0 is Kq+4/3(Gq-Gsh), not the silt's (refuted), above both end members for a stiffer silt.", "quantifier": "all positive moduli and clay contents in range", "why_tests_cant": "The inputs are continuous; a test samples a few points and any coefficient, sign or swapped-argument slip that vanishes at those points passes.", "anchors": ["rockphypy/GM.py: silty_shale, shaly_sand"]}
{"id": "C36", "title": "Hertz-Mindlin and Walton agree; cube-root pressure law", "statement": "hertzmindlin's bulk modulus cubed is Cn^2(1-phic)^2 G0^2 P/(18 pi^2 (1-nu)^2), the shear modulus is the slip-weighted ratio times it; both scale as sigma^(1/3) and Cn^(2/3) and increase with pressure, coordination, rough fraction and decreasing porosity. Walton equals hertzmindlin for every input. f=0 is the smooth limit (G=3/5K, Poisson ratio 1/4), softer than f=1: the docstring says the opposite (refuted).", "quantifier": "all positive moduli, 0<=phic<1, positive coordination, non-negative pressure, f in [0,1]", "why_tests_cant": "The inputs are continuous; a test samples a few points and any coefficient, sign or swapped-argument slip that vanishes at those points passes.", "anchors": ["rockphypy/GM.py: hertzmindlin, Walton"]}
{"id": "C37", "title": "softsand/stiffsand are the HS bounds between mineral and Hertz-Mindlin pack", "statement": "softsand and stiffsand are the lower and upper Walpole forms between the mineral and the Hertz-Mindlin pack: mineral at phi=0, pack at phi=phic, pack <= soft <= stiff <= mineral when the pack is softer than the mineral, decreasing in porosity; softsand is non-decreasing in pressure.", "quantifier": "all phi in [0,phic], all positive moduli, pressures and coordination numbers", "why_tests_cant": "The claim is an inequality over a continuum of inputs; sampling cannot exclude a violating point between the samples.", "anchors": ["rockphypy/GM.py: softsand, stiffsand, hertzmindlin"]}
{"id": "C38", "title": "Contact cement model", "statement": "contactcement is Dvorkin and Nur's theory; within the range of the fits the moduli are positive and strictly increase with the cement volume; they scale with the moduli and (even coating) linearly with the coordination number; cement at the contacts is stiffer than the same volume spread evenly; every scheme value other than 1 means even coating and none is rejected. No cement does not mean no stiffness (refuted): at phi=phic the moduli are strictly positive.", "quantifier": "all positive grain and cement moduli, phi<=phic<1, positive coordination; monotonicity where the scaled cement radius a satisfies a<=1, a^2<=16 Lambda_n, a^2<=11 Lambda_t and grain Poisson ratio >= 0", "why_tests_cant": "The inputs are continuous; a test samples a few points and any coefficient, sign or swapped-argument slip that vanishes at those points passes.", "anchors": ["rockphypy/GM.py: contactcement"]}
{"id": "C39", "title": "constantcement and MUHS", "statement": "constantcement and MUHS return the contact-cement point at phi=phi_b and the mineral at phi=0, are the lower and upper Walpole forms between, and when the cement point is softer than the mineral: cement point <= constantcement <= MUHS <= mineral.", "quantifier": "all phi in [0,phi_b] with positive contact-cement moduli", "why_tests_cant": "The inputs are continuous; a test samples a few points and any coefficient, sign or swapped-argument slip that vanishes at those points passes.", "anchors": ["rockphypy/GM.py: constantcement, MUHS"]}
{"id": "C40", "title": "Digby model root selection", "statement": "For positive pressure Digby returns exactly one value per modulus, given by the unique solution of the contact equation, strictly increasing in pressure and in bond radius; without bonds it is hertzmindlin with smooth contacts. At zero pressure it returns three equal values (refuted: single value).", "quantifier": "all positive moduli, coordination and pressure, bond radius >= 0, and every root finder that returns the complex roots of the polynomial", "why_tests_cant": "Depends on a root-finding call and on root multiplicities.", "anchors": ["rockphypy/GM.py: Digby, hertzmindlin"]}
{"id": "C41", "title": "Norris-Johnson stress-induced anisotropy", "statement": "johnson returns a VTI matrix common to all loading paths; the mean stress is the same for 'together' and 'uni_iso'. At equal strains C33, C13, C44, C66 and the stresses of these two paths are the theory's integrals (stresses integrated along the loading path and over contact directions). At any strains the result is the theory's plus explicit multiples of one error term that vanishes only at equal strains; C66 is the theory's only there. Refuted: the documented path 'iso_uni' is rejected (UnboundLocalError); the 'iso-uni' mean stress differs; C13 has the wrong sign for small axial strain; C11 exceeds the theory by any factor as the axial strain vanishes.", "quantifier": "all positive moduli and contacts, 0<=phi<1, negative strains", "why_tests_cant": "The inputs are continuous; a test samples a few points and any coefficient, sign or swapped-argument slip that vanishes at those points passes.", "anchors": ["rockphypy/GM.py: johnson"]}
{"id": "C42", "title": "Patchy cement model", "statement": "pcm is two Hashin-Shtrikman averages in sequence: end members weighted by the cemented fraction (upper bound for 'stiff', lower otherwise), then the mineral; vpcm averages the two first stages linearly. pcm with no cemented fraction is softsand, with full fraction it is mode independent; soft <= stiff; vpcm equals pcm stiff at alpha=0 and pcm soft at alpha=1, is non-decreasing in the cemented fraction and non-increasing in alpha. Equal end members raise ZeroDivisionError (refuted). diluting falls from k to 0 at the reference stress and is cut off beyond for non-integer exponents, but not for exponent 2 (refuted), and rejects a scalar stress with TypeError (refuted).", "quantifier": "all inputs whose cemented end member is stiffer than the loose one; all arrays of non-negative stresses", "why_tests_cant": "The inputs are continuous; a test samples a few points and any coefficient, sign or swapped-argument slip that vanishes at those points passes.", "anchors": ["rockphypy/GM.py: pcm, vpcm, diluting"]}
{"id": "C43", "title": "Gas and CO2 properties", "statement": "For a gas (reduced temperature 0.85 to 4, gravity below 12) and for CO2 (-14 to 900 C) at any positive pressure, rho_K_gas and rho_K_co2 return a density that follows the real-gas law with the published compressibility factor, is positive and increases with pressure, and a bulk modulus that is the adiabatic one, gamma*rho/(d rho/dP). dz_dp returns the derivative of the compressibility factor. At zero pressure both results are zero; at low pressure and reduced temperature up to 2.7 the density is within 3.5% of the ideal gas. Refuted: the reduced temperature of CO2 is not one at the critical temperature, because 273.5 is used for 273.15; the high-pressure density at 31.1 C is provably too low.", "quantifier": "all pressures, temperatures and gravities in the stated ranges", "why_tests_cant": "The inputs are continuous; a test samples a few points and any coefficient, sign or swapped-argument slip that vanishes at those points passes.", "anchors": ["rockphypy/BW.py: rho_K_gas, dz_dp, rho_K_co2, pseudo_p_t"]}
{"id": "C44", "title": "Water and brine", "statement": "rho_K_water, v_water, rho_K_brine and v_brine return the published polynomials, with K = rho v^2 in GPa. At zero salinity brine is water. On 0-100 C, 0-100 MPa, salinity up to 0.3: density between 0.9 and 1.1 for water, velocity above 700 m/s, and salt makes the fluid denser, faster and stiffer. Water gets denser with pressure, and lighter with temperature at zero pressure.", "quantifier": "all T, P, S (evaluation: all reals with S >= 0)", "why_tests_cant": "The inputs are continuous; a test samples a few points and any coefficient, sign or swapped-argument slip that vanishes at those points passes.", "anchors": ["rockphypy/BW.py: rho_K_water, v_water, rho_K_brine, v_brine"]}
{"id": "C45", "title": "Oil and live oil", "statement": "rho_K_oil and rho_K_go return the published density, and K = rho v^2 in GPa with the published velocity. Dead oil gets denser with pressure (up to 70 MPa) and lighter with temperature. Leaving out Rg uses the saturated gas-oil ratio, which grows with pressure and falls with temperature. Live oil at a fixed gas content gets lighter with temperature; more gas lowers the pseudo-density. With no gas, live and dead oil at zero pressure agree within 0.1%. Refuted: an oil with reference density above 1.08 gets no modulus (NaN).", "quantifier": "all P, T, reference densities, gravities and gas-oil ratios in the stated ranges", "why_tests_cant": "The inputs are continuous; a test samples a few points and any coefficient, sign or swapped-argument slip that vanishes at those points passes.", "anchors": ["rockphypy/BW.py: rho_K_oil, rho_K_go"]}
{"id": "C46", "title": "CO2/brine mixtures", "statement": "co2_brine returns brine at Sco2=0 and CO2 at Sco2=1 for Wood and for every positive Brie exponent; the density is the volume average; Wood's modulus is the harmonic average; both moduli stay between the end members; Wood <= Brie for exponents up to one. Refuted: Brie is not above Wood for every exponent. CO2 below 2 MPa is softer than brine.", "quantifier": "all saturations, both CO2 laws, all temperatures, pressures and salinities in range", "why_tests_cant": "The claim is an inequality over a continuum of inputs; sampling cannot exclude a violating point between the samples.", "anchors": ["rockphypy/BW.py: co2_brine"]}
{"id": "C47", "title": "Kozeny-Carman family", "statement": "Kozeny_Carman is d^2 phi^3/(180 (1-phi)^2): nonnegative, strictly increasing in porosity, scaling with d^2; the percolation version with zero threshold and the cemented Panda-Lake law agree with it up to their documented constants. The percolation version vanishes at the threshold and grows above it; below the threshold it is a negative permeability (refuted). A pure void raises ZeroDivisionError for Python floats.", "quantifier": "all phi in (0,1), d", "why_tests_cant": "The claim is an inequality over a continuum of inputs; sampling cannot exclude a violating point between the samples.", "anchors": ["rockphypy/Perm.py: Kozeny_Carman, Kozeny_Carman_Percolation"]}
{"id": "C48", "title": "Panda-Lake reduces to Kozeny-Carman", "statement": "Panda_Lake is Kozeny-Carman times 5/(2 tau) times a sorting factor; it reduces to Kozeny_Carman for CV=0 and tau=2.5, the factor stays in [1,9) without skewness, and permeability grows with skewness.", "quantifier": "all inputs", "why_tests_cant": "The inputs are continuous; a test samples a few points and any coefficient, sign or swapped-argument slip that vanishes at those points passes.", "anchors": ["rockphypy/Perm.py: Panda_Lake, Panda_Lake_cem"]}
{"id": "C49", "title": "Permeability should grow with grain size", "statement": "Permeability should grow with grain size. Revil does, with the documented exponents; Bernabe is a weighted mean of the crack and tube permeabilities and grows with both sizes; Fredrich decreases with grain size and equals the scaled Kozeny-Carman law only for d=1 (refuted).", "quantifier": "all inputs", "why_tests_cant": "The inputs are continuous; a test samples a few points and any coefficient, sign or swapped-argument slip that vanishes at those points passes.", "anchors": ["rockphypy/Perm.py: Fredrich, Revil, Bernabe, Owolabi, Bloch, Perm_logs"]}
{"id": "C50", "title": "Reflection coefficients vanish for identical media and change sign when the layers are swapped", "statement": "Aki_Richards, AVO_HTI (for every list of angles and azimuths) and AVO_ortho return 0 for identical half-spaces and change sign when the half-spaces are swapped. AVO_abe raises ZeroDivisionError for two layers of the same acoustic impedance, in particular identical ones, and with NumPy operands returns a NaN gradient for identical layers (refuted).", "quantifier": "all media and angles", "why_tests_cant": "The inputs are continuous; a test samples a few points and any coefficient, sign or swapped-argument slip that vanishes at those points passes.", "anchors": ["rockphypy/AVO.py"]}
{"id": "C51", "title": "zoeppritz", "statement": "At every angle where it is real, zoeppritz should return the only PP and PS amplitudes that keep displacement and traction continuous across the interface. Proved: before the critical angles that problem has exactly one solution, Aki and Richards' formulas, and it conserves energy; zoeppritz returns those formulas with two changes (the ray parameter is the sine of an angle in degrees, and one coefficient uses the S slowness of the wrong layer). So at normal incidence it gives the exact impedance reflection coefficient and no converted wave, but it fails the boundary conditions even at an angle where the unit mistake has no effect, identical layers reflect, and a layer over a faster one is past critical at the wrong angle (refuted).", "quantifier": "all media and angles", "why_tests_cant": "The inputs are continuous; a test samples a few points and any coefficient, sign or swapped-argument slip that vanishes at those points passes.", "anchors": ["rockphypy/AVO.py: zoeppritz"]}
{"id": "C52", "title": "Aki-Richards / Shuey consistency", "statement": "Aki_Richards returns the first-order PP and PS coefficients: along every small change of Vp, Vs and density its two coefficients have the same derivative as the exact solution of the boundary conditions. The PP coefficient is intercept + gradient sin^2 + (1/2 dVp/Vp) sin^2 tan^2 with the returned intercept and gradient, and the intercept is the impedance reflection coefficient up to second order. AVO_abe returns the same intercept and gradient, Shuey's gradient (equal to it when Vp/Vs is the same in both layers), and two converted-wave slopes related to the true small-angle slope, which is proved as a limit.", "quantifier": "all media", "why_tests_cant": "The inputs are continuous; a test samples a few points and any coefficient, sign or swapped-argument slip that vanishes at those points passes.", "anchors": ["rockphypy/AVO.py: Aki_Richards, AVO_abe"]}
{"id": "C53", "title": "Elastic impedance", "statement": "EI_ref returns the published power laws for the five modes, with and without normalisation, for every list of layers. At zero angle EI_pp is Vp*rho either way. Ratios of EI_pp between two layers do not depend on the normalisation, and their logarithm is twice the Aki-Richards coefficient up to third order in the contrasts. A single normalised layer is its own reference at every angle. EI_svp is NaN where sin(theta) Vs/Vp exceeds the constant ratio SP (refuted: it should be defined at pre-critical angles).", "quantifier": "all inputs", "why_tests_cant": "The inputs are continuous; a test samples a few points and any coefficient, sign or swapped-argument slip that vanishes at those points passes.", "anchors": ["rockphypy/AVO.py: EI_ref"]}
{"id": "C54", "title": "Azimuthal AVO consistency", "statement": "AVO_HTI is Rueger's weak-anisotropy coefficient for every list of angles and azimuths; in the symmetry-axis and isotropy planes it equals AVO_ortho's two outputs, at normal incidence it is the impedance reflection coefficient whatever the azimuth, and for isotropic layers it does not depend on azimuth.", "quantifier": "all angles", "why_tests_cant": "The inputs are continuous; a test samples a few points and any coefficient, sign or swapped-argument slip that vanishes at those points passes.", "anchors": ["rockphypy/AVO.py: AVO_HTI, AVO_ortho"]}
{"id": "C55", "title": "Thomsen and Tsvankin parameters", "statement": "Thomsen returns zero anisotropy for isotropic media; Thomsen_Tsvankin reduces to Thomsen for VTI with delta3=0.", "quantifier": "all stiffnesses", "why_tests_cant": "The inputs are continuous; a test samples a few points and any coefficient, sign or swapped-argument slip that vanishes at those points passes.", "anchors": ["rockphypy/Anisotropy.py: Thomsen, Thomsen_Tsvankin"]}
{"id": "C56", "title": "Backus average", "statement": "Backus is invariant under permutation and uniform refinement of layers, a homogeneous stack gives the isotropic stiffness, and C44 <= C66; stability is preserved.", "quantifier": "any number of layers", "why_tests_cant": "The layer count is unbounded.", "anchors": ["rockphypy/Anisotropy.py: Backus, Backus_log"]}
{"id": "C57", "title": "Phase velocities solve the Christoffel equation", "statement": "vel_azi_VTI and vel_azi_HTI return the eigenvalue velocities of the Christoffel matrix at every angle, real for a positive definite stiffness; isotropic media give the velocities of V at every angle.", "quantifier": "all angles, all stable stiffnesses", "why_tests_cant": "The inputs are continuous; a test samples a few points and any coefficient, sign or swapped-argument slip that vanishes at those points passes.", "anchors": ["rockphypy/Anisotropy.py: vel_azi_VTI, vel_azi_HTI"]}
{"id": "C58", "title": "Bond rotation", "statement": "Bond_trans should return the stiffness in rotated axes at every angle. Refuted (a factor 2 is missing in one block): it is the rotation of every stiffness exactly when the angle is a multiple of 90 degrees, and it changes isotropic matrices otherwise, by an exact amount. At every angle and for every matrix, what it returns is the rotated tensor with each mixed pair of axes counted half in the normal components. It keeps symmetry, is the identity at angle 0, and an unsupported axis raises UnboundLocalError.", "quantifier": "all angles", "why_tests_cant": "The inputs are continuous; a test samples a few points and any coefficient, sign or swapped-argument slip that vanishes at those points passes.", "anchors": ["rockphypy/Anisotropy.py: Bond_trans"]}
{"id": "C59", "title": "Empirical trends", "statement": "krief scales both grain moduli by one factor that is 1 at zero porosity, at most (1-phi)^3 and falling with porosity (so the Poisson ratio is the grain's); at porosity one Python floats raise. esti_VS is half the sum of the arithmetic and harmonic averages of the Greenberg-Castagna lines, stays between the lines and below Vp, falls with shale content and rises with Vp. han, Scherbaum, Storvoll, hjelstuen, ramm_porosity and ehrenberg are the stated lines. Hillis grows with depth to its pole near 6721 m, where Python floats raise, and is negative below. Sclater inverts the exponential compaction law. Cp falls from 20 to 0 and is 8.6 at porosity 0.4. Refuted: han is positive for all porosities; ehrenberg and Hillis accept kilometres as documented.", "quantifier": "all inputs (evaluation); stated ranges for the inequalities", "why_tests_cant": "The claim is an inequality over a continuum of inputs; sampling cannot exclude a violating point between the samples.", "anchors": ["rockphypy/Emp.py"]}
{"id": "C60", "title": "Segmented trends and the order of the depths", "statement": "yu_segment_trend returns one value per depth in input order exactly when all depths down to 2630 m precede the deeper ones (so for sorted input); otherwise the values come out rearranged: refuted for unsorted input. Japsen does the same for sorted input below 5300 m and silently drops deeper depths: refuted. Both drop NaN depths, so values shift: refuted. ramm_porosity_segment keeps order and length and is the smaller of its two curves; it returns percent where ramm_porosity returns a fraction: refuted. All three trends are strictly monotone.", "quantifier": "all depth lists of any length", "why_tests_cant": "Depends on list order and length.", "anchors": ["rockphypy/Emp.py: yu_segment_trend, Japsen"]}
{"id": "C61", "title": "St Peter sandstone", "statement": "empirical_StPeter returns A + K P - B exp(-D P) in m/s with the published constants; any sample other than 1 and 2 raises UnboundLocalError. For every non-negative pressure velocities grow with pressure, Vs < Vp, and the less porous sample is faster.", "quantifier": "all pressures and sample numbers", "why_tests_cant": "The inputs are continuous; a test samples a few points and any coefficient, sign or swapped-argument slip that vanishes at those points passes.", "anchors": ["rockphypy/Emp.py: empirical_StPeter"]}
{"id": "C62", "title": "Matrix of a cemented shaly sand", "statement": "matrix_modulus is the Hill average of shale, grain and cement weighted by their volume fractions of the solid (which are non-negative and sum to one whenever vsh <= 1 - phi_c and phi_0 <= phi_c < 1), lies between the component moduli, and stiffens with cement that is stiffer than both others; the clean-sand code path agrees with the general one. den_matrix satisfies mass balance and lies between the component densities. Refuted: without cement the density is the one used elsewhere for the shale/quartz mixture; the functions are meaningful when vsh > 1 - phi_c.", "quantifier": "all compositions, porosities and positive moduli/densities", "why_tests_cant": "The claim ranges over a continuum of minerals, porosities and velocities and over arrays of any length; a test samples a few points.", "anchors": ["rockphypy/QI.py: matrix_modulus, den_matrix"]}
{"id": "C63", "title": "Cement-volume estimation", "statement": "cal_v_const exists for 0 < phi <= phi_b, with 0 < Vs < Vp, ignores the cement density, and has NaN Vp at zero porosity; cst_vels is the same line with another density, NaN beyond phi_b, and ignores the mineral density. estimate_cem, for logs and seed arrays of any length, returns 0 on or below the first line, the hard-coded 0.1 on or above the last one, and otherwise linear interpolation between the nearest slower and the nearest faster line. Refuted: a sample exactly on an inner line gets that line's cement volume; a missing (NaN) sample is tolerated (it raises ValueError); seeds may be a list (TypeError). The coordination number argument and the cement density are ignored.", "quantifier": "all logs and seed arrays of any length, all materials", "why_tests_cant": "The claim ranges over a continuum of minerals, porosities and velocities and over arrays of any length; a test samples a few points.", "anchors": ["rockphypy/QI.py: estimate_cem, cal_v_const, cst_vels"]}
{"id": "C64", "title": "Screening bounds and normalisation", "statement": "screening always returns 100 equally spaced porosities from 1e-7 to phi_c and, per porosity, the brine-saturated friable sand, the increasing-cement sand (NaN exactly above the threshold) and the contact-cement sand (NaN exactly below it). A constant-cement line that ends at the threshold stays below the second bound; the friable-sand line is below it as soon as it is so at the threshold. Refuted: the bounds are ordered for every stress. normalize divides by the maximum: non-negative data that are not all zero are mapped into [0,1] with maximum 1. Refuted: all-zero data (NaN), negative maximum (values above 1), empty data (ValueError).", "quantifier": "all materials, stresses and thresholds; arrays of any length", "why_tests_cant": "The claim ranges over a continuum of minerals, porosities and velocities and over arrays of any length; a test samples a few points.", "anchors": ["rockphypy/QI.py: screening, normalize, cst_vels"]}
{"id": "C65", "title": "An empty pore amplifies strain", "statement": "PQ of an empty sphere has P>1 and Q>1. For a slightly prolate empty pore it returns P<1, which is impossible physically: refuted with a witness. The cause is stated exactly: for every prolate spheroid P and Q are the concentration factors built on a number in which 1/cosh stands where Eshelby's integral has arccosh, so they are Eshelby's only if ln(al+sqrt(al^2-1)) cosh(al) = 1, never for aspect ratios of 3/2 and more. As the aspect ratio decreases to 1 they tend to 0, not to the sphere's positive values.", "quantifier": "all K,G>0 for the sphere; a witness for the prolate case", "why_tests_cant": "The sphere and oblate branches are right and the output looks plausible; only an inequality over all shapes exposes the slip.", "anchors": ["rockphypy/EM.py: PQ, PQ_vectorize"]}
{"id": "C66", "title": "Permeability from logs", "statement": "The four estimates of Perm_logs (Tixier, Timur, Coates-type) are positive and grow with porosity and with falling water saturation. Owolabi's oil and gas permeabilities do too while 34540 Sw^2 <= 26550; for water-saturated rock with phi >= 0.2 they are negative (refuted positivity).", "quantifier": "all porosities and saturations", "why_tests_cant": "The inputs are continuous; a test samples a few points and any coefficient, sign or swapped-argument slip that vanishes at those points passes.", "anchors": ["rockphypy/Perm.py: Perm_logs, Owolabi"]}
{"id": "C67", "title": "Bloch's porosity and permeability", "statement": "Bloch's predictions fall with sorting and grow with rigid grain content and grain size; one factor of ten in permeability per 1/1.34 mm. In the documented units (fractions) a well-sorted sand has porosity above 1 (refuted): the formula is in percent.", "quantifier": "all sorting, content and grain sizes", "why_tests_cant": "The inputs are continuous; a test samples a few points and any coefficient, sign or swapped-argument slip that vanishes at those points passes.", "anchors": ["rockphypy/Perm.py: Bloch"]}
{"id": "C68", "title": "Rock physics template", "statement": "Each template point of plot_rpt is (Vp*rho, Vp/Vs) of the rock saturated with the Wood mixture of brine and hydrocarbon: brine at sw = 1, hydrocarbon at sw = 0, Vp/Vs > sqrt(4/3). More brine raises Vp/Vs, and raises the impedance when the hydrocarbon is softer and no denser. Refuted: Vp itself increases with brine saturation.", "quantifier": "all dry frames, minerals, fluids, porosities and saturations", "why_tests_cant": "The trend is an inequality over a continuum of rocks and fluids; the function only draws a figure.", "anchors": ["rockphypy/QI.py: plot_rpt"]}
{"id": "C69", "title": "P and Q are the strain concentration factors of Eshelby's tensor", "statement": "For every oblate spheroid and the sphere, every host and every passive inclusion (also empty or fluid), PQ returns the isotropic parts of the tensor that takes the remote strain to the inclusion's strain, computed from Eshelby's tensor and the equivalent-inclusion equations, which have exactly one solution. Eshelby's tensor itself is taken from the improper integral of the ellipsoid potential, whose value is unique. Both factors are positive. As the aspect ratio tends to 1 they tend to the sphere's. PQ_vectorize returns the same element by element, with 1 replaced by 0.999.", "quantifier": "all hosts, inclusions and aspect ratios in (0,1]", "why_tests_cant": "A dozen intermediate coefficients multiply each other; an error in one of them changes the result by a few per cent only and agrees for special contrasts.", "anchors": ["rockphypy/EM.py: PQ, PQ_vectorize"]}
{"id": "C70", "title": "Template figure", "statement": "plot_rpt draws one curve per porosity, through that rock's (impedance, Vp/Vs) at the given saturations in order, and a last curve through all porosities at the last saturation. For increasing saturations Vp/Vs increases strictly along every curve, and so does the impedance if the brine is at least as dense as the hydrocarbon. The last curve is the brine line if the last saturation is 1; refuted: for saturations ending below 1 every point of it has a smaller Vp/Vs than the brine-saturated rock. No saturations raise IndexError.", "quantifier": "any number of porosities and saturations, all rocks and fluids", "why_tests_cant": "Figures are checked by eye; a transposed array, a curve from the wrong column or a mask on the wrong side still draws a plausible picture, and sizes of the arrays are unbounded.", "anchors": ["rockphypy/QI.py: plot_rpt"]}
{"id": "C71", "title": "Diagnostic figures show the computed bounds and data", "statement": "cst_plot draws, on one porosity grid, the contact-cement and the friable-sand curves of screening and one constant-cement curve per requested porosity, blank beyond that porosity; cement_diag_plot adds one mark per sample coloured by the estimate, and rejects unequal numbers of porosities and velocities. Refuted: the heavy curve is the whole upper bound (it is blank below the threshold, where screening returns a finite velocity). screening_plot draws the three bounds and marks coloured by 1 - Vsh; refuted: Vsh under another keyword is silently dropped and the plot raises TypeError. kde_plot shows the density divided by its maximum at the right grid point, blanked below 1e-4, with values 0 or in [1e-4,1] and 1 reached; refuted: the colour map argument is a choice (it is ignored), and an unknown velocity name is rejected (the bounds are drawn without data).", "quantifier": "all inputs, any number of lines, samples and grid cells", "why_tests_cant": "Figures are checked by eye; a transposed array, a curve from the wrong column or a mask on the wrong side still draws a plausible picture, and sizes of the arrays are unbounded.", "anchors": ["rockphypy/QI.py: __init__, screening_plot, kde_plot, cst_plot, cement_diag_plot, normalize"]}
{"id": "C72", "title": "Cement estimates of a data set", "statement": "estimate_cem on an object with as many velocities as porosities returns the estimates of the pairs (C63), whatever other data the object carries. With fewer velocities the remaining estimates are NaN; with more it raises IndexError.", "quantifier": "logs of any length, any seeds", "why_tests_cant": "Logs have unbounded length and the unequal-length cases depend on every sample before them.", "anchors": ["rockphypy/QI.py: __init__, estimate_cem"]}
{"id": "C73", "title": "Gassmann, Hashin-Shtrikman, Reuss and self-consistent agree", "statement": "Filling the pores of the stiff dry Hashin-Shtrikman rock with a fluid by Gassmann gives exactly the stiff Hashin-Shtrikman rock computed with the fluid as second phase. With no frame Gassmann returns the Reuss average of VRH. A frame between 0 and the stiff dry bound gives a saturated modulus between the Reuss average and the stiff saturated bound. A state that the self-consistent iteration with spherical inclusions leaves unchanged lies within the Hashin-Shtrikman bounds, for softer and stiffer inclusions. The moduli that the dry-pore iteration converges to below half porosity are left unchanged by the general iteration with empty inclusions.", "quantifier": "all minerals, fluids, porosities and inclusion contrasts", "why_tests_cant": "An identity between two functions over a continuum of inputs: tests compare a handful of points to a tolerance.", "anchors": ["rockphypy/EM.py: HS, VRH, SC, SC_flex", "rockphypy/Fluid.py: Gassmann"]}
{"id": "C74", "title": "Layers with equal shear and thin cracks", "statement": "Backus averaging of any number of isotropic layers that share one shear modulus returns an isotropic medium with that shear modulus and the harmonic mean of the P-wave moduli; for two materials it is the average of MT_average whatever the matrix bulk modulus. For cracks of a given density, empty or filled with a fluid whose modulus scales with the aspect ratio, Eshelby_Cheng's C33, C13, C44 and C66 tend to Hudson's first-order values as the aspect ratio tends to 0. C11 does not: it tends to the uncracked value (refuted).", "quantifier": "all layer stacks; all hosts, crack densities and fluids; every tolerance", "why_tests_cant": "A limit and unbounded layer counts; a test sees one aspect ratio and one stack.", "anchors": ["rockphypy/Anisotropy.py: Backus", "rockphypy/EM.py: MT_average, Eshelby_Cheng, hudson"]}
{"id": "C75", "title": "Thomsen's parameters and exact VTI velocities", "statement": "Without assuming weak anisotropy, gamma from Thomsen gives the SH velocity of vel_azi_VTI at every angle; delta is the slope of the squared P velocity against sin^2 of the angle at the symmetry axis and (epsilon-delta)c33/c44 that of the squared SV velocity, with a stated fourth-order error bound; epsilon gives the horizontal P velocity. If epsilon equals delta the squared P velocity is c11 sin^2 + c33 cos^2 and the SV velocity is constant. Angles az, -az and 180-az give the same velocities. vel_azi_HTI equals vel_azi_VTI of the medium turned over, with the two shear velocities exchanged.", "quantifier": "all stable VTI and HTI media, all angles", "why_tests_cant": "Error order near an axis and equality of two functions over all media and angles.", "anchors": ["rockphypy/Anisotropy.py: Thomsen, vel_azi_VTI, vel_azi_HTI"]}
{"id": "C76", "title": "The shape of inclusions: spheres act least, discs most; schemes stay within Hashin-Shtrikman", "statement": "For an inclusion softer than its matrix in both moduli, or stiffer in both, PQ at every oblate aspect ratio lies between its value for a sphere and that of a disc of the inclusion material, and both ends are attained. Hence every exact solution of the differential scheme integrated by Berryman_DEM, at every aspect ratio and volume fraction, and every positive root of the self-consistent residual of Berryman_func whose phases are all softer or all stiffer in both moduli than the root, lies within the Hashin-Shtrikman bounds (those returned by HS for two phases). With equal shear moduli the differential scheme gives Hill's exact modulus for every shape; empty spherical pores drive Poisson's ratio towards 1/5.", "quantifier": "all positive matrix moduli, all non-negative inclusion moduli with contrasts of one sign, all aspect ratios in (0, 1], all volume fractions, all exact solutions of the differential equations, any number of phases for the self-consistent residual", "why_tests_cant": "it is an inequality over a continuum of shapes, contrasts and solutions of a differential equation; a test samples some of them and cannot see a violation near a limit such as very flat inclusions", "anchors": ["rockphypy/EM.py: EM.PQ", "rockphypy/EM.py: EM.DEM", "rockphypy/EM.py: EM.Berryman_DEM", "rockphypy/EM.py: EM.Berryman_func", "rockphypy/EM.py: EM.Berryman_sc", "rockphypy/EM.py: EM.HS"]}
{"id": "C77", "title": "The differential effective medium scheme is well posed and its result is a function of its inputs", "statement": "For every host, every passive inclusion (solid, fluid or empty) and every oblate aspect ratio, the equations integrated by Berryman_DEM have exactly one solution on all volume fractions below 1, and its moduli are positive. Hence for every solver that returns values of a solution, Berryman_DEM(phi <= 0.99) returns the moduli at 0, 0.01, ... up to the first multiple of 0.01 not below phi; above 0.99 the grid reaches volume fraction 1, where no derivative exists. Adding inclusions in two batches gives the same medium as adding them at once, the result does not depend on the unit, and full replacement of the host gives the inclusion's moduli. For empty spheres the moduli solve two algebraic equations with a unique positive solution. The bulk modulus recorded in the project's test of Berryman_DEM is not that of the solution.", "quantifier": "all positive host moduli, all non-negative inclusion moduli, all aspect ratios in (0, 1], all volume fractions in [0, 1), all differentiable solutions on any interval [0, T), all solvers that return values of a solution", "why_tests_cant": "existence and uniqueness of a solution of a nonlinear differential equation, and laws relating whole solution curves, are statements about all curves; a test compares numbers with earlier output of the same program, and here the recorded numbers are themselves wrong", "anchors": ["rockphypy/EM.py: EM.DEM", "rockphypy/EM.py: EM.Berryman_DEM", "rockphypy/EM.py: EM.PQ", "pytest/test_EM.py: test_Berryman_DEM"]}
{"id": "C78", "title": "When the self-consistent equations of Berryman_sc have a physical solution", "statement": "For any number of phases with positive moduli, any fractions summing to one and any oblate or spherical grains, the two residuals that Berryman_sc hands to its solver vanish together at some pair of positive moduli, and that pair lies between the smallest and largest moduli of the phases. Hence a solver that finds a root whenever there is one makes Berryman_sc return such a pair for every input of this kind; with two phases ordered alike it lies within the Hashin-Shtrikman bounds. For grains with pores that have no rigidity (empty, or filled with a fluid no stiffer than the grains) there is a positive fraction, for each pore shape, below which a root with at least half of the grains' moduli exists; and beyond a fraction that depends only on the grains' aspect ratio there is no positive root, whatever the moduli and the pore shape.", "quantifier": "all finite lists of phases with positive bulk and shear moduli, non-negative fractions summing to one and aspect ratios in (0, 1]; all solvers that return a positive root of the residual if one exists; all grains with pores of zero shear modulus, any bulk modulus up to the grains', any two aspect ratios in (0, 1]", "why_tests_cant": "that a nonlinear system of two equations has a solution for every choice of coefficients is an existence statement over a continuum of systems; a test shows one root of one system", "anchors": ["rockphypy/EM.py: EM.Berryman_sc", "rockphypy/EM.py: EM.Berryman_func", "rockphypy/EM.py: EM.PQ_vectorize"]}
{"id": "C79", "title": "Calls with arrays act element by element", "statement": "The straight-line functions of the package (velocities, moduli, bounds, cracks, Gassmann and its relatives, contact models, permeability and empirical relations, Batzle-Wang fluids, AVO coefficients: about eighty) accept any mixture of numbers and arrays. With arrays of a common length n (or one element), the call returns and the i-th element of every result is what the function returns for the i-th elements of the arguments; a result that depends on no array argument comes back as a number. With Python floats among the arguments, if each element alone gives finite numbers then the array call gives exactly these, and an array call raises only if each element alone would raise; a zero divisor inside an array never raises. Arrays whose lengths do not match fail only with ValueError. The functions that test an argument (v_cem in the patchy cement models, vsh in matrix_modulus) are right whenever they return, but raise ValueError for an array of two or more elements in the tested argument.", "quantifier": "all listed functions, all argument lists mixing numbers and one-dimensional arrays of any length and content, both arithmetics", "why_tests_cant": "array length, contents and which arguments are arrays vary without bound; a test calls with one array of one length and compares with stored values, not with the element-by-element calls", "anchors": ["rockphypy/utils.py: utils.V", "rockphypy/EM.py: EM.HS", "rockphypy/EM.py: EM.MT_average", "rockphypy/Fluid.py: Fluid.Gassmann", "rockphypy/GM.py: GM.hertzmindlin", "rockphypy/GM.py: GM.contactcement", "rockphypy/GM.py: GM.pcm", "rockphypy/GM.py: GM.vpcm", "rockphypy/BW.py: BW.rho_K_brine", "rockphypy/Perm.py: Permeability.Kozeny_Carman", "rockphypy/Emp.py: Empirical.krief", "rockphypy/AVO.py: AVO.zoeppritz", "rockphypy/QI.py: QI.matrix_modulus"]}
{"id": "C80", "title": "Two-dimensional arguments and the functions that return tables", "statement": "The straight-line functions accept numbers, rows, columns and tables that stretch to n by k: the call returns and element (i, j) of each result is what the function returns for the elements (i, j) of the arguments, with the axes of the arguments it depends on; sizes that do not match fail with ValueError and nothing else. Aki_Richards of n interfaces and k angles returns n by k reflectivities with row i, column j for interface i and angle j, and columns of n for intercept and gradient; Swiss_cheese does the same for minerals and porosities, EI_ref for the samples of a log and angles (normalised or not, each column the log for that angle), and AVO_HTI has one row per azimuth and one column per incidence angle. It is false that the arguments may be mixed: Aki_Richards and Swiss_cheese look only at their first velocity or modulus, so with it an array and another a number they raise, and with it a number and the others arrays Aki_Richards pairs interface i with angle i or raises ValueError; and three arrays of n samples give Swiss_cheese an n by n table, with the wanted values on the diagonal.", "quantifier": "all programs and listed functions, all numbers of layers, samples, angles and azimuths, all values", "why_tests_cant": "the sizes and which arguments are arrays vary without bound, and a wrong pairing of layers and angles still returns numbers of a plausible size", "anchors": ["rockphypy/AVO.py: AVO.Aki_Richards", "rockphypy/AVO.py: AVO.EI_ref", "rockphypy/AVO.py: AVO.AVO_HTI", "rockphypy/EM.py: EM.Swiss_cheese"]}
{"id": "C81", "title": "Rounding errors of the computed results", "statement": "Run in floating point, with an arbitrary relative error of at most u in every operation, each straight-line function (and each function with tests away from ties) stays in the domain of its operations and returns numbers that tend to the exact results as u and the errors of the inputs tend to zero, for every input strictly inside the domain; with u = 0 the results are exactly those of the real-number model. With u at most 1e-6 (double precision has 1.1e-16) the relative errors are bounded by fixed numbers of rounding units: velocities from moduli 8 and 5, moduli from velocities 12 and 5 when 8 Vs^2 <= 3 Vp^2, Poisson's ratio 17, Lame's constant 5, the lower Hashin-Shtrikman bounds 13 and 20, critical porosity 7, Gassmann 34 when the frame is at most 3/4 of the mineral, velocities of the saturated rock 42, 7 and 4 (density), the low-frequency Geertsma-Smit velocity 43, Kozeny-Carman 10, Panda-Lake 29, Fredrich 18, Hertz-Mindlin 75 and 124. It is false that the bulk modulus from velocities is accurate for all velocities: near Vp^2 = 4/3 Vs^2 no fixed number of rounding units bounds its relative error.", "quantifier": "all programs and listed functions, all inputs in the stated ranges, all rounding units and all rounding errors of every operation", "why_tests_cant": "the rounding errors are different for every input, and cancellation makes them arbitrarily large on inputs a test does not try", "anchors": ["rockphypy/utils.py: utils.V", "rockphypy/utils.py: utils.M_from_V", "rockphypy/utils.py: utils.poi", "rockphypy/utils.py: utils.lame", "rockphypy/EM.py: EM.HS", "rockphypy/EM.py: EM.cripor", "rockphypy/Fluid.py: Fluid.Gassmann", "rockphypy/Fluid.py: Fluid.vels", "rockphypy/Fluid.py: Fluid.Geertsma_Smit_LF", "rockphypy/Perm.py: Permeability.Kozeny_Carman", "rockphypy/Perm.py: Permeability.Panda_Lake", "rockphypy/Perm.py: Permeability.Fredrich", "rockphypy/GM.py: GM.hertzmindlin"]}
{"id": "C82", "title": "A stack of isotropic layers: least energy, bounds and signs of anisotropy", "statement": "The stiffness Backus returns is the one whose energy is, at every average strain, the least mean energy over all layer strains with that average whose in-plane parts agree. Hence stiffer layers make a stiffer stack, and the stack lies between the isotropic solids with VRH's Reuss and Voigt moduli, as energies of every strain. Thomsen's parameters of the result satisfy gamma >= 0 and delta <= epsilon, with equality exactly when the layers share one shear modulus; a common Vs/Vp gives delta = 0. Refuted: P-waves are not always faster along the layers; layers with one P-wave modulus and different shear moduli have epsilon < 0.", "quantifier": "every list of layers of any length with non-negative thicknesses, positive shear and P-wave moduli (positive bulk modulus where Reuss or Thomsen is involved); every strain and strain field", "why_tests_cant": "The claims compare quadratic forms at all strains and minimise over all strain fields, for stacks of any length; tests compare five numbers for a fixed stack.", "anchors": ["rockphypy/Anisotropy.py: Backus, Thomsen", "rockphypy/EM.py: VRH", "rockphypy/utils.py: write_VTI_matrix, write_iso"]}
{"id": "C83", "title": "Stiffer constituents make a stiffer rock", "statement": "No returned modulus decreases when the moduli of the constituents increase. This holds for both Hashin-Shtrikman bounds, the Mori-Tanaka average, the Swiss-cheese model, the self-consistent iteration after any number of rounds, the Hertz-Mindlin and Walton packs (in both grain moduli together with packing, contacts, pressure and friction), soft, stiff and cemented sands, Gassmann (in the mineral, frame and fluid moduli together) and Brie's mixture. End to end, the velocities of a saturated soft or stiff sand do not decrease with grain moduli, contacts, pressure, friction and fluid modulus at fixed densities. Refuted: the pack does not stiffen in proportion to its grains.", "quantifier": "every pair of inputs ordered argument by argument, in the physical range; every number of self-consistent rounds; both modes of arithmetic; all arguments may change at once", "why_tests_cant": "Monotonicity compares all pairs of inputs; each test compares one output with one recorded number. The shear modulus of the pack depends on the grain bulk modulus through two opposing factors, so no sample of points settles the sign.", "anchors": ["rockphypy/EM.py: HS, MT_average, Swiss_cheese, SC", "rockphypy/GM.py: hertzmindlin, Walton, softsand, stiffsand, constantcement, MUHS", "rockphypy/Fluid.py: Gassmann, Brie, vels"]}
{"id": "C84", "title": "Results do not depend on the choice of units", "statement": "Expressing all dimensional arguments of a function in other units of length, mass and time gives the same result expressed in those units; exceptions and the branches taken are the same. Pure numbers (porosities, angles, fractions, aspect ratios, coordination numbers, reflection coefficients, anisotropy parameters, geometric factors P and Q) do not change. This holds for the elastic conversions and matrices, bounds, inclusion and crack models, iterative and differential schemes, layered media and logs of any length, fluid mixing and substitution, Biot and White dispersion, grain packs and cemented sands, permeability models, reflectivity, normalised elastic impedance, and the screening and template workflows; and for arrays mixed with numbers. Refuted: SC_dilute returns ratios rather than moduli, Fredrich an inverse area, the lateral stress of johnson with path iso-uni and the raw elastic impedance depend on the units.", "quantifier": "every change of units of length, mass and time (three positive factors), every argument including infinite and undefined ones, both modes of arithmetic, every list, matrix, mesh and number of iterations, every root finder and every correct matrix inverse", "why_tests_cant": "Each test uses one system of units. A formula that mixes dimensions (a missing square, a stress added to a ratio) gives a plausible number in the units of the test and a wrong one in others; only a statement for all scalings excludes it.", "anchors": ["rockphypy/utils.py: V, poi, lame, M_from_V, write_*", "rockphypy/EM.py: VRH, HS, SC, PQ, DEM, Berryman_func, hudson*, Eshelby_Cheng, SC_dilute", "rockphypy/Anisotropy.py: Backus, Backus_log, Thomsen, Bond_trans, vel_azi_*", "rockphypy/Fluid.py: Gassmann*, Biot*, White_Dutta_Ode, Brown_Korringa*", "rockphypy/GM.py: hertzmindlin, Walton, contactcement, pcm, Digby, johnson", "rockphypy/Perm.py", "rockphypy/AVO.py: zoeppritz, Aki_Richards, EI_ref, AVO_HTI", "rockphypy/QI.py: screening, cst_vels, plot_rpt"]}
{"id": "C85", "title": "Small errors in the inputs give small errors in the results", "statement": "Wherever a formula gives numbers, its results vary continuously with all its inputs jointly: to every tolerance on the results belongs a tolerance on the inputs. Formulas built from arithmetic, sines and exponentials also go on giving numbers around every such input: a small enough error can neither raise an exception nor give inf or nan. This covers the elastic conversions, bounds and inclusion models, fluid substitution and mixing, granular media, permeability and empirical relations, Batzle-Wang fluids, reflectivity, and the averages over any number of constituents or layers. The patchy-cement models are continuous across the threshold between their two regimes, the matrix modulus across the disappearance of the shale. Refuted: Brie mixing jumps at zero saturation and exponent zero, and the matrix modulus jumps where a shale of modulus zero disappears.", "quantifier": "every input at which the function returns numbers, every tolerance, every perturbation of all inputs at once, both modes of arithmetic, any number of constituents or layers", "why_tests_cant": "A test compares values at chosen inputs. A jump at a threshold between two formulas, or an isolated input at which a formula happens to work, lies between the inputs any finite test chooses.", "anchors": ["rockphypy/utils.py: V, poi, lame, M_from_V", "rockphypy/EM.py: VRH, HS, cripor, hudson_rand, SC_dilute, MT_average, OConnell_Budiansky", "rockphypy/Anisotropy.py: Backus, Thomsen, Thomsen_Tsvankin", "rockphypy/Fluid.py: Brie, Gassmann*, Biot_HF, Geertsma_Smit_*, Mavko_Jizba", "rockphypy/GM.py: hertzmindlin, softsand, stiffsand, Walton, contactcement, constantcement, MUHS, pcm, vpcm, ThomasStieber", "rockphypy/Perm.py", "rockphypy/Emp.py", "rockphypy/BW.py", "rockphypy/AVO.py: zoeppritz, AVO_abe, AVO_ortho", "rockphypy/QI.py: matrix_modulus"]}
{"id": "C86", "title": "Results in double precision", "statement": "On IEEE 754 doubles (53-bit numbers, round to nearest even, overflow to infinity, gradual underflow), with literals read as the nearest double, a call in which no operation overflows, underflows or leaves its domain returns finite doubles that differ from the exact result only by the rounding errors of C81; this holds for every straight-line function and every function with tests. For arguments of moderate size no such thing happens, and the returned doubles are finite and accurate to fixed numbers of rounding units 2^-53: velocities 8 and 5 (all arguments between 2^-300 and 2^300), Lame's constant 5, Poisson's ratio 17, crack porosity 6, lower Hashin-Shtrikman bounds 13 and 20, critical porosity 7; and, in units that also bound the errors of the C library's powers, moduli from velocities 12 and 5, Gassmann 34, saturated velocities 42, 7 and 4, low-frequency Geertsma-Smit 43, Kozeny-Carman 10, Panda-Lake 29, Fredrich 18, Hertz-Mindlin 75 and 124. It is false without a restriction on size: V returns inf for moduli of 2^970 although the velocity is 1e168, and crack_por returns 0 for a positive crack porosity.", "quantifier": "all doubles in the stated ranges (including both zeros where zero is allowed), all machines that read literals to nearest and whose library functions are accurate to u, both modes of the exact model; all programs and all runs without overflow and underflow", "why_tests_cant": "there are 2^64 doubles per argument; whether an intermediate product overflows or loses all its digits depends on the sizes of all arguments together", "anchors": ["rockphypy/utils.py: V, poi, lame, M_from_V, crack_por", "rockphypy/EM.py: HS, cripor", "rockphypy/Fluid.py: Gassmann, vels, Geertsma_Smit_LF", "rockphypy/Perm.py: Kozeny_Carman, Panda_Lake, Fredrich", "rockphypy/GM.py: hertzmindlin"]}
{"id": "C87", "title": "Calls do not disturb the caller's arrays", "statement": "With arrays as mutable objects: a call of any of the 85 elementwise functions, of diluting, of ramm_porosity_segment or of cst_vels leaves every array of the caller unchanged, whether it returns or raises; its results depend on the contents of its arguments only; and the arrays it returns are new (and, for the elementwise functions, distinct), except that Fluid.Gassmann returns its argument G_dry itself as the second result. So in a session of any length an array changes only if the caller assigns to it, and a call gives the same results whatever was called before it. PQ_vectorize and Berryman_func change the array of aspect ratios and no other, to what their models say: each 1 becomes 0.999; when the numbers of aspect ratios and moduli differ PQ_vectorize raises IndexError and has changed them all the same. cst_vels fills its arrays with the velocities of the scalar model, NaN beyond phi_b. Two expectations are false: after PQ_vectorize crack_por gives another result for the same array of aspect ratios although the caller assigned to nothing, and assigning to the saturated shear moduli returned by Gassmann changes the dry ones.", "quantifier": "all stores, all arguments (numbers and references, aliased or not), all sessions of calls, new arrays, second names and element assignments, both modes; float arrays of one dimension", "why_tests_cant": "tests call each function once on fresh arrays and look at the returned values; aliasing and in-place changes show only in sequences of calls that share arrays", "anchors": ["rockphypy/EM.py: PQ_vectorize, Berryman_func", "rockphypy/Fluid.py: Gassmann", "rockphypy/GM.py: diluting", "rockphypy/Emp.py: ramm_porosity_segment", "rockphypy/QI.py: cal_v_const"]}
{"id": "C88", "title": "Whole numbers may be passed as integers", "statement": "Passing 37 instead of 37.0, or np.array([36, 37]) instead of an array of floats, gives the same results and the same exceptions. For Python integers this holds for all 85 elementwise functions and integers of any size. For 64-bit integer arrays, mixed with Python integers, floats and arrays of floats, it holds for 80 of them as long as the integers stay below a limit given for each function (from 10 to 10^18), whichever whole-number literals of the function are integers; and for the other five when the Hashin-Shtrikman moduli, the exponent of Brie's law, or the tortuosity in the high-frequency limits of Biot and of Geertsma and Smit is a float. Refuted: the Hashin-Shtrikman bounds never return when two bulk or two shear moduli are integers, one of them in an array; the two high-frequency limits never return for an integer array of tortuosities; Brie's law never returns for a negative integer exponent when the saturation or the exponent is an integer array; the sphere pack of Hertz and Mindlin silently gives nan for integer arrays of moduli in pascal, where floats give numbers.", "quantifier": "all integers, floats and arrays of any length in any mixture, all limits stated, all ways of writing the literals of a function as integers or floats, both modes of arithmetic", "why_tests_cant": "The tests pass floats. Whether some integer leaves 64 bits inside a formula depends on all arguments together, and silently gives a plausible number.", "anchors": ["rockphypy/EM.py: HS", "rockphypy/Fluid.py: Brie, Biot_HF, Geertsma_Smit_HF", "rockphypy/GM.py: hertzmindlin", "all elementwise functions of rockphypy"]}
{"id": "C89", "title": "Gaps in the data stay visible and stay where they are", "statement": "A missing value (nan) in an argument of any of the 85 elementwise functions shows in every result, unless no other value of that argument would change the result: the function never returns a number it could not have known. In arrays the gap appears at its own sample, and the other samples are what they are without it. A gap in one constituent or layer blanks the whole Voigt-Reuss-Hill average and the Backus stiffnesses that depend on it, and leaves the two others unchanged. The segmented porosity trend and cst_vels keep a missing depth or porosity as nan at its place. Refuted: QI.normalize turns the whole log to nan for one missing sample, EI_ref with normalisation does so for all P impedances, estimate_cem returns for no sample when one porosity or velocity is missing, and diluting turns a missing stress into the number 0.", "quantifier": "all arguments (finite, infinite, nan), every argument that may be missing, arrays of any length with any number of gaps, both modes of arithmetic, all 85 functions", "why_tests_cant": "The tests contain no nan. Whether a nan can be swallowed by a power, a test or a mask depends on the path the computation takes, which depends on all arguments.", "anchors": ["all elementwise functions of rockphypy", "rockphypy/EM.py: VRH", "rockphypy/Anisotropy.py: Backus", "rockphypy/QI.py: normalize, estimate_cem, cst_vels, matrix_modulus", "rockphypy/AVO.py: EI_ref", "rockphypy/GM.py: diluting, pcm, vpcm", "rockphypy/Emp.py: ramm_porosity_segment"]}
{"id": "C90", "title": "Rock-physics curves can be read backwards", "statement": "Fluid substitution, cement estimation and template reading use the curves in reverse: from a measured modulus to the porosity, fluid, saturation or pressure. Over its stated range each of these curves gives every value between its end values for exactly one argument, no value outside, and a value close to a given one belongs to an argument close to that one's: the critical-porosity, Swiss-cheese and Krief moduli, the Hashin-Shtrikman bounds, soft sand, stiff sand, constant cement and contact cement as functions of porosity or fraction; the Hertz-Mindlin and Walton packs as functions of stress; Gassmann's saturated modulus as a function of the fluid, of the frame and of the porosity; Brie's mixture as a function of saturation; Kozeny-Carman permeability as a function of porosity; Poisson's ratio as a function of the bulk modulus; the St Peter velocities as functions of pressure; and the impedance and Vp/Vs of a template as functions of saturation. Refuted: Vp does not determine the saturation (the first gas lowers it, more gas raises it again); the velocity of a suspension does not determine its porosity, two porosities giving the same velocity exactly when they add up to D0/(D0-Df) - Kf/(K0-Kf); and the segmented velocity trend gives the velocities above 3443.798 up to 3444.23 m/s at no depth.", "quantifier": "all parameters in the stated ranges, every argument of the range and every value between the end values, every tolerance; both modes of arithmetic", "why_tests_cant": "A test evaluates a curve at chosen points. That a value is attained, attained once, and attained nowhere else concerns all points of the range and all values at once, and needs monotonicity and continuity between the points.", "anchors": ["rockphypy/EM.py: cripor, HS, Swiss_cheese, VRH", "rockphypy/GM.py: softsand, stiffsand, constantcement, MUHS, contactcement, hertzmindlin, Walton", "rockphypy/Fluid.py: Gassmann, Brie, vels", "rockphypy/Perm.py: Kozeny_Carman", "rockphypy/Emp.py: krief, StPeter, yu_segment_trend", "rockphypy/QI.py: plot_rpt", "rockphypy/utils.py: poi"]}
{"id": "C91", "title": "Lists in place of arrays", "statement": "A Python list where an array is meant (poi([36.0, 37.0], 44.0)) is never taken for something else unnoticed when the other arguments are lists and Python numbers: the 84 formula functions then return what they return with the lists made arrays, or raise. In fact 81 of them never return if any argument is a list; Thomsen takes a list of angles only, Gassmann a list for the shear modulus only (and hands it back), zoeppritz lists for the two P-wave velocities and the angles only. When lists are mixed with arrays and NumPy numbers, 46 of the functions still return what they return for arrays, or raise. Refuted for the others: poi(np.array([K1, K2]), [G]) repeats the list where it means to double it, and returns a Poisson's ratio that is too large for all positive K1, K2, G.", "quantifier": "all lists, arrays and numbers of any length, size and value, in every argument position and combination; both modes of arithmetic; either behaviour of NumPy numbers next to lists; whichever literals of the code are integers or floats", "why_tests_cant": "Lists, arrays, integers, Python floats and NumPy numbers in up to 17 arguments give more combinations than a test can call, and each depends on the lengths and on the NumPy version. A repeated or joined list changes the result only where its length happens to fit another argument.", "anchors": ["rockphypy/utils.py: poi, V, M_from_V", "rockphypy/EM.py: HS, cripor, hudson_rand", "rockphypy/GM.py: softsand, contactcement, pcm, vpcm", "rockphypy/Fluid.py: Gassmann, Biot_HF", "rockphypy/Anisotropy.py: Thomsen", "rockphypy/AVO.py: zoeppritz, AVO_ortho", "rockphypy/BW.py", "rockphypy/Emp.py", "rockphypy/Perm.py"]}
{"id": "C92", "title": "A log may be sorted, filtered, cut and joined before or after the calculation", "statement": "For the 78 formula functions without tests (those of C79), picking samples out of the arguments - in any order, with repetitions, by a mask or a slice - and calling gives the same outcome as calling and then picking the same samples out of the results: the same numbers or the same exception, with numbers and arrays mixed. So sorting the samples sorts the results alike, and a log cut at any sample and processed in two parts gives the two parts of the results, which joined are the results of the whole. Refuted with a test: QI.matrix_modulus raises ValueError on every log of two or more shale volumes, although it takes each of its samples by itself.", "quantifier": "all 78 programs, all array lengths, all selections of valid sample numbers, all cutting points, all values including NaN and infinities, both modes of arithmetic", "why_tests_cant": "A test picks a few orders and cuts of a few logs. That no function lets one sample influence another, whatever the selection and the values, is a statement about all of them.", "anchors": ["rockphypy/utils.py", "rockphypy/EM.py", "rockphypy/Anisotropy.py", "rockphypy/Fluid.py", "rockphypy/GM.py", "rockphypy/Perm.py", "rockphypy/Emp.py", "rockphypy/BW.py", "rockphypy/AVO.py", "rockphypy/QI.py: matrix_modulus"]}
{"id": "C93", "title": "Python floats and NumPy floats give the same results", "statement": "Calling a formula function with Python floats or with NumPy floats (taken out of an array) makes no difference to a result: whenever the call with Python floats returns, the call with NumPy floats returns too, with the same numbers, except where Python's power gives a complex number (as Brie's law does at a negative saturation; NumPy gives nan). The same holds for the numbers beside arrays: Python's or NumPy's, the results have the same shapes and elements. Without arrays, the functions never raise with NumPy floats; with Python floats their only exception is ZeroDivisionError. Nineteen of the functions do not tell the two apart at all, on any input. Refuted: that NumPy shows inf or nan wherever Python raises. With equal phases the Hashin-Shtrikman bounds divide by zero on the way: Python raises, and NumPy returns the moduli of the phase.", "quantifier": "every formula program of the model's language (the functions of C79 among them), all real, infinite and NaN arguments, arrays of any length, all paths through their tests", "why_tests_cant": "A test runs one kind of float at chosen points. The two differ only at zero divisors and at powers of zero and negative numbers, which can arise in any intermediate value.", "anchors": ["rockphypy/utils.py", "rockphypy/EM.py: HS", "rockphypy/Fluid.py", "rockphypy/GM.py", "rockphypy/Perm.py", "rockphypy/Emp.py", "rockphypy/BW.py", "rockphypy/AVO.py"]}
