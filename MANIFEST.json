{
 "claims": [
  {
   "property": "C01",
   "status": "proved",
   "theorems": [
    "C01_velocity_moduli_roundtrip",
    "C01_velocities_are_plane_wave_speeds",
    "C01_moduli_velocity_roundtrip"
   ],
   "note": "Both directions, units included."
  },
  {
   "property": "C02",
   "status": "proved",
   "theorems": [
    "C02_poisson_defined",
    "C02_poisson_range",
    "C02_poisson_from_velocities",
    "C02_poisson_undefined",
    "C02_lame_constant"
   ],
   "note": "Range, relation to K/G, agreement with velocities, exact failure set."
  },
  {
   "property": "C03",
   "status": "proved",
   "theorems": [
    "C03_vti_matrix_class",
    "C03_hti_matrix_class",
    "C03_iso_matrix_class",
    "C03_ti_matrices_of_isotropic_constants",
    "C03_vti_hti_exchange_axes",
    "C03_general_matrix_entries"
   ],
   "note": "Symmetry class stated through invariance of the fourth-rank tensor."
  },
  {
   "property": "C04",
   "status": "proved",
   "theorems": [
    "C04_compliance_is_inverse",
    "C04_inverse_exists"
   ],
   "note": "Whole inverse from five of its entries; existence shown."
  },
  {
   "property": "C05",
   "status": "proved",
   "theorems": [
    "C05_velocities_to_stiffness"
   ],
   "note": "Round trip through the exact phase velocities."
  },
  {
   "property": "C06",
   "status": "proved",
   "theorems": [
    "C06_porosity_of_cracks",
    "C06_crack_porosity"
   ],
   "note": "Closed form for every input, and its derivation from the volume of the cracks."
  },
  {
   "property": "C07",
   "status": "proved",
   "theorems": [
    "C07_vrh_means_and_bounds",
    "C07_vrh_order_of_phases_irrelevant",
    "C07_vrh_monotone_in_moduli",
    "C07_vrh_single_material",
    "C07_vrh_length_mismatch"
   ],
   "note": "Any number of phases, by induction on the list."
  },
  {
   "property": "C08",
   "status": "proved",
   "theorems": [
    "C08_vrh_zero_modulus",
    "C08_absent_phase_ignored_refuted"
   ],
   "note": "Zero modulus with positive and with zero fraction; the natural claim is refuted."
  },
  {
   "property": "C09",
   "status": "proved",
   "theorems": [
    "C09_cripor",
    "C09_cripor_zero_critical_porosity",
    "C09_cripor_reuss"
   ],
   "note": "All inputs with phic>0; the zero denominator separately."
  },
  {
   "property": "C10",
   "status": "proved",
   "theorems": [
    "C10_hs_is_walpole",
    "C10_hs_reuss_lower_upper_voigt",
    "C10_hs_pure_phases",
    "C10_hs_swap_phases_and_bound",
    "C10_hs_monotone_in_fraction"
   ],
   "note": "Identity with the Walpole form, ordering, ends, symmetry, monotonicity."
  },
  {
   "property": "C11",
   "status": "proved",
   "theorems": [
    "C11_hs_equal_bulk_python_raises",
    "C11_hs_equal_phases_numpy",
    "C11_hs_fluid_lower_bound",
    "C11_hs_equal_shear_python_raises",
    "C11_hs_one_equal_numpy"
   ],
   "note": "Both arithmetic modes, one or both moduli equal."
  },
  {
   "property": "C12",
   "status": "proved",
   "theorems": [
    "C12_eshelby_cheng_against_eshelby",
    "C12_c11_is_eshelby_refuted",
    "C12_zero_porosity_is_background",
    "C12_affine_in_porosity",
    "C12_matrix_flag_only_repackages"
   ],
   "note": "Eigenstrain equation as the specification; C11 refuted with the exact extra term."
  },
  {
   "property": "C13",
   "status": "proved",
   "theorems": [
    "C13_hudson_expansion",
    "C13_no_cracks",
    "C13_cracks_only_weaken",
    "C13_axis_is_a_rotation",
    "C13_unsupported_axis",
    "C13_unsupported_order"
   ],
   "note": "Whole tensor, both orders, both axes."
  },
  {
   "property": "C14",
   "status": "proved",
   "theorems": [
    "C14_random_cracks_exact_discrepancy",
    "C14_shear_is_orientation_average_refuted"
   ],
   "note": "Exact factor; refuted for every crd != 0."
  },
  {
   "property": "C15",
   "status": "proved",
   "theorems": [
    "C15_orthogonal_sets_add_up",
    "C15_single_set_is_hudson"
   ],
   "note": "Whole tensor."
  },
  {
   "property": "C16",
   "status": "proved",
   "theorems": [
    "C16_cone_exact_discrepancy",
    "C16_cone_is_transversely_isotropic_refuted",
    "C16_cone_zero_angle"
   ],
   "note": "Whole tensor against the circle mean; refuted for every non-zero crd and cone angle."
  },
  {
   "property": "C17",
   "status": "proved",
   "theorems": [
    "C17_root_between_phases",
    "C17_hill_for_equal_shear_moduli",
    "C17_single_material_is_a_root",
    "C17_self_consistent_equations",
    "C17_oblate_root_between_phases",
    "C17_berryman_sc",
    "C17_residual_has_no_memory"
   ],
   "note": "fsolve is not modelled: the theorems speak about the residual that fsolve is given."
  },
  {
   "property": "C18",
   "status": "proved",
   "theorems": [
    "C18_caller_array_overwritten",
    "C18_caller_array_unchanged_refuted"
   ],
   "note": "Exact condition and the witness."
  },
  {
   "property": "C19",
   "status": "proved",
   "theorems": [
    "C19_equal_shear_inclusion",
    "C19_identical_inclusion",
    "C19_dem_equal_shear_solution",
    "C19_dem_equations",
    "C19_dem_solution_between_host_and_inclusion"
   ],
   "note": "All aspect ratios for equal shear moduli, oblate and spherical ones in general; the ODE solver is an oracle assumed exact."
  },
  {
   "property": "C20",
   "status": "proved",
   "theorems": [
    "C20_swiss_cheese",
    "C20_swiss_cheese_decreasing",
    "C20_one_iteration_against_swiss_cheese",
    "C20_sc_iteration",
    "C20_sc_unique_solution"
   ],
   "note": "All iteration counts, the limit, and uniqueness of the solution."
  },
  {
   "property": "C21",
   "status": "proved",
   "theorems": [
    "C21_dilute_cracks",
    "C21_cracks_are_thin_spheroids"
   ],
   "note": "Strict monotonicity, first-order agreement, thin-spheroid limit."
  },
  {
   "property": "C22",
   "status": "proved",
   "theorems": [
    "C22_fluid_root_is_consistent",
    "C22_dry_and_uncracked_limits",
    "C22_no_cracks",
    "C22_fluid_crack_share",
    "C22_second_equation",
    "C22_share_at_a_root_refuted"
   ],
   "note": "fsolve is a parameter."
  },
  {
   "property": "C23",
   "status": "proved",
   "theorems": [
    "C23_dilute",
    "C23_dilute_returns_moduli_refuted",
    "C23_dilute_unknown_mode",
    "C23_flex_pass_and_fixed_point",
    "C23_flex_no_inclusions",
    "C23_flex_passes",
    "C23_flex_pores_positive",
    "C23_flex_positive_refuted"
   ],
   "note": "Including the fixed-point equations."
  },
  {
   "property": "C24",
   "status": "proved",
   "theorems": [
    "C24_mt_is_walpole",
    "C24_mt_is_hashin_shtrikman",
    "C24_mt_between_phases",
    "C24_mt_pure_phases"
   ],
   "note": "Including the identity with Hashin-Shtrikman."
  },
  {
   "property": "C25",
   "status": "proved",
   "theorems": [
    "C25_gassmann_undrained_modulus",
    "C25_gassmann_monotone",
    "C25_gassmann_porosity",
    "C25_gassmann_dry_limit"
   ],
   "note": "Undrained test stated in Spec."
  },
  {
   "property": "C26",
   "status": "proved",
   "theorems": [
    "C26_substitution_is_gassmann",
    "C26_substitutions_compose",
    "C26_same_fluid_is_identity",
    "C26_substitution_exists_and_inverts",
    "C26_approximate_variant_and_pole"
   ],
   "note": "Composition assumes only that the two substitutions return numbers."
  },
  {
   "property": "C27",
   "status": "proved",
   "theorems": [
    "C27_vels_is_gassmann_with_mass_balance",
    "C27_gassmann_vels_agrees_with_vels"
   ],
   "note": "Units as documented in the code."
  },
  {
   "property": "C28",
   "status": "proved",
   "theorems": [
    "C28_brie_end_points_monotone_bounds",
    "C28_brie_larger_exponent_softer"
   ],
   "note": "All exponents e>0."
  },
  {
   "property": "C29",
   "status": "proved",
   "theorems": [
    "C29_biot_hf_phase_velocities",
    "C29_biot_hf_brackets_gassmann",
    "C29_geertsma_smit_hf_exceeds_biot",
    "C29_geertsma_smit_lf_interpolates",
    "C29_geertsma_smit_lf_zero_frequency_raises",
    "C29_biot_solves_dispersion_relation",
    "C29_biot_low_frequency_is_gassmann"
   ],
   "note": "Bessel function is an arbitrary parameter; low-frequency limit needs the sign condition biot_branch > 0 (met by ordinary rocks), which decides which root is called fast."
  },
  {
   "property": "C30",
   "status": "proved",
   "theorems": [
    "C30_inverse_exists",
    "C30_dry2sat_is_undrained_compliance",
    "C30_dry2sat_sat2dry_round_trip",
    "C30_sat2dry_dry2sat_round_trip",
    "C30_substitution_is_resaturation",
    "C30_isotropic_case_is_gassmann"
   ],
   "note": "numpy.linalg.inv is a parameter assumed only to invert invertible matrices; such a function is shown to exist."
  },
  {
   "property": "C31",
   "status": "proved",
   "theorems": [
    "C31_mavko_jizba"
   ],
   "note": ""
  },
  {
   "property": "C32",
   "status": "proved",
   "theorems": [
    "C32_squirt_volumetric_compliance",
    "C32_squirt_preserves_isotropy_refuted",
    "C32_squirt_is_crack_theory_refuted"
   ],
   "note": "Volumetric part proved; agreement with the crack decomposition and preservation of isotropy refuted with the exact conditions."
  },
  {
   "property": "C33",
   "status": "proved",
   "theorems": [
    "C33_white_equal_fluids_is_gassmann",
    "C33_white_passive_at_every_frequency",
    "C33_white_is_pressure_diffusion",
    "C33_low_frequency_is_gassmann_wood",
    "C33_high_frequency_is_gassmann_hill"
   ],
   "note": "Includes that no division by zero occurs (both impedances have positive real part). Exact reals: the overflow of exp at very high frequency in floating point is outside the model."
  },
  {
   "property": "C34",
   "status": "proved",
   "theorems": [
    "C34_thomas_stieber"
   ],
   "note": ""
  },
  {
   "property": "C35",
   "status": "proved",
   "theorems": [
    "C35_shaly_sand",
    "C35_silty_shale_shear",
    "C35_silty_shale_pure_silt_refuted"
   ],
   "note": ""
  },
  {
   "property": "C36",
   "status": "proved",
   "theorems": [
    "C36_hertz_mindlin_moduli",
    "C36_walton_equals_hertz_mindlin",
    "C36_scaling",
    "C36_monotone",
    "C36_slip_parameter_docstring_refuted"
   ],
   "note": ""
  },
  {
   "property": "C37",
   "status": "proved",
   "theorems": [
    "C37_soft_and_stiff_sand",
    "C37_decreasing_in_porosity",
    "C37_soft_sand_stiffens_with_pressure"
   ],
   "note": ""
  },
  {
   "property": "C38",
   "status": "proved",
   "theorems": [
    "C38_dvorkin_nur",
    "C38_cement_stiffens",
    "C38_no_cement_no_stiffness_refuted",
    "C38_moduli_scale",
    "C38_schemes",
    "C38_linear_in_coordination"
   ],
   "note": "Published fit coefficients are in Spec3."
  },
  {
   "property": "C39",
   "status": "proved",
   "theorems": [
    "C39_constantcement_and_MUHS"
   ],
   "note": ""
  },
  {
   "property": "C40",
   "status": "proved",
   "theorems": [
    "C40_digby",
    "C40_digby_monotone",
    "C40_unbonded_is_smooth_hertz_mindlin",
    "C40_single_value_at_zero_pressure_refuted"
   ],
   "note": "np.roots is a parameter assumed to return the complex roots of the polynomial (with multiplicity). Array-valued stress is not modelled."
  },
  {
   "property": "C41",
   "status": "proved",
   "theorems": [
    "C41_vti_matrix",
    "C41_equal_strains",
    "C41_deviation_from_theory",
    "C41_equal_strains_stresses",
    "C41_shear_exact_only_at_equal_strains",
    "C41_path_names_refuted",
    "C41_iso_uni_mean_stress_refuted",
    "C41_c13_sign_refuted",
    "C41_c11_unbounded_refuted"
   ],
   "note": "Theory's integrals are Riemann integrals in Spec4 (moduli) and Spec10 (stresses along a loading path)."
  },
  {
   "property": "C42",
   "status": "proved",
   "theorems": [
    "C42_pcm_limits",
    "C42_pcm_is_two_bounds",
    "C42_soft_below_stiff",
    "C42_vpcm",
    "C42_equal_end_members_refuted",
    "C42_diluting",
    "C42_diluting_range",
    "C42_diluting_cutoff_refuted",
    "C42_diluting_scalar_refuted"
   ],
   "note": "The model is elementwise in alpha."
  },
  {
   "property": "C43",
   "status": "proved",
   "theorems": [
    "C43_gas",
    "C43_co2",
    "C43_dz_dp",
    "C43_co2_critical_refuted",
    "C43_ideal_gas",
    "C43_vacuum"
   ],
   "note": "Derivatives as derivable_pt_lim; reduced-temperature window 0.85-4."
  },
  {
   "property": "C44",
   "status": "proved",
   "theorems": [
    "C44_water",
    "C44_brine",
    "C44_fresh",
    "C44_physical",
    "C44_water_trends"
   ],
   "note": "Evaluation for all reals; inequalities on 0-100 C, 0-100 MPa."
  },
  {
   "property": "C45",
   "status": "proved",
   "theorems": [
    "C45_dead_oil",
    "C45_dead_oil_trends",
    "C45_heavy_oil_refuted",
    "C45_live_oil",
    "C45_saturated",
    "C45_live_trends",
    "C45_no_gas"
   ],
   "note": "Velocity and density formulas in Spec5; heavy oil refuted."
  },
  {
   "property": "C46",
   "status": "proved",
   "theorems": [
    "C46_mixture",
    "C46_endpoints",
    "C46_brie_above_wood_refuted",
    "C46_co2_softer"
   ],
   "note": "Both values of bw, all saturations."
  },
  {
   "property": "C47",
   "status": "proved",
   "theorems": [
    "C47_kozeny_carman",
    "C47_percolation",
    "C47_below_percolation_refuted",
    "C47_void_raises"
   ],
   "note": ""
  },
  {
   "property": "C48",
   "status": "proved",
   "theorems": [
    "C48_panda_lake"
   ],
   "note": ""
  },
  {
   "property": "C49",
   "status": "proved",
   "theorems": [
    "C49_fredrich_refuted",
    "C49_revil",
    "C49_bernabe"
   ],
   "note": ""
  },
  {
   "property": "C50",
   "status": "proved",
   "theorems": [
    "C50_identical",
    "C50_swap",
    "C50_abe_refuted",
    "C50_abe_numpy_refuted"
   ],
   "note": ""
  },
  {
   "property": "C51",
   "status": "proved",
   "theorems": [
    "C51_normal_incidence",
    "C51_identical_refuted",
    "C51_critical_refuted",
    "C51_boundary_conditions_solved_by_aki_richards",
    "C51_returned_formula",
    "C51_boundary_conditions_refuted"
   ],
   "note": "The boundary-value problem is solved and proved unique; the function's deviation from it is stated as an exact formula and refuted by an explicit pair of layers."
  },
  {
   "property": "C52",
   "status": "proved",
   "theorems": [
    "C52_aki_richards",
    "C52_abe",
    "C52_converted_slope",
    "C52_first_order_of_exact"
   ],
   "note": ""
  },
  {
   "property": "C53",
   "status": "proved",
   "theorems": [
    "C53_exponents",
    "C53_normal_incidence",
    "C53_reflectivity",
    "C53_single_layer",
    "C53_svp_refuted"
   ],
   "note": ""
  },
  {
   "property": "C54",
   "status": "proved",
   "theorems": [
    "C54_hti",
    "C54_planes",
    "C54_orthorhombic_planes",
    "C54_isotropic"
   ],
   "note": "C54_hti is the evaluation against Spec5.ruger; planes, normal incidence and isotropy are consequences. C54_orthorhombic_planes pins AVO_ortho."
  },
  {
   "property": "C55",
   "status": "proved",
   "theorems": [
    "C55_thomsen_first_order",
    "C55_thomsen_isotropic",
    "C55_tsvankin_reduces_to_thomsen",
    "C55_tsvankin_parameters"
   ],
   "note": "First-order Taylor expansion of the exact velocities; isotropic and VTI reductions."
  },
  {
   "property": "C56",
   "status": "proved",
   "theorems": [
    "C56_backus_is_layered_response",
    "C56_backus_homogeneous",
    "C56_backus_layer_order",
    "C56_backus_split_layer",
    "C56_backus_thickness_scale",
    "C56_backus_shear_order",
    "C56_backus_stable",
    "C56_backus_log",
    "C56_backus_log_depth_shift"
   ],
   "note": "Layered-medium response, invariances, stability, log front end."
  },
  {
   "property": "C57",
   "status": "proved",
   "theorems": [
    "C57_vti_phase_velocities",
    "C57_hti_phase_velocities",
    "C57_isotropic_velocities"
   ],
   "note": "Eigenvalues of the Christoffel matrix, with multiplicity, and mode labels; isotropic media."
  },
  {
   "property": "C58",
   "status": "proved",
   "theorems": [
    "C58_bond_preserves_isotropy_refuted",
    "C58_bond_isotropic_defect",
    "C58_bond_is_rotation_only_at_quarter_turns",
    "C58_bond_formula",
    "C58_bond_zero_angle",
    "C58_bond_symmetric",
    "C58_bond_other_axis_raises"
   ],
   "note": "The property as a user expects it is false of the code; the angles at which it holds are characterised exactly, and C58_bond_formula gives the result at every angle."
  },
  {
   "property": "C59",
   "status": "proved",
   "theorems": [
    "C59_krief",
    "C59_krief_no_solid_raises",
    "C59_esti_VS",
    "C59_han",
    "C59_han_positive_refuted",
    "C59_depth_lines",
    "C59_ramm_range",
    "C59_Hillis",
    "C59_Hillis_pole",
    "C59_documented_units_refuted",
    "C59_Sclater",
    "C59_Cp"
   ],
   "note": "Every scalar function of Emp.py."
  },
  {
   "property": "C60",
   "status": "proved",
   "theorems": [
    "C60_yu_order",
    "C60_yu_sorted",
    "C60_yu_increasing",
    "C60_yu_order_refuted",
    "C60_nan_dropped_refuted",
    "C60_Japsen",
    "C60_Japsen_deep_refuted",
    "C60_Japsen_shape",
    "C60_ramm_segment",
    "C60_ramm_fraction_refuted"
   ],
   "note": "Lists of any length; exact condition for order preservation; three refutations."
  },
  {
   "property": "C61",
   "status": "proved",
   "theorems": [
    "C61_StPeter",
    "C61_other_sample",
    "C61_physical"
   ],
   "note": "All integers as sample number."
  },
  {
   "property": "C62",
   "status": "proved",
   "theorems": [
    "C62_matrix_modulus",
    "C62_matrix_monotone",
    "C62_den_matrix",
    "C62_no_solid_raises",
    "C62_uncemented",
    "C62_same_as_mineral_density_refuted",
    "C62_much_shale_refuted"
   ],
   "note": "Two refutations: density without cement, and vsh > 1 - phi_c."
  },
  {
   "property": "C63",
   "status": "proved",
   "theorems": [
    "C63_estimate_cem",
    "C63_read_between",
    "C63_read_range",
    "C63_on_a_line_refuted",
    "C63_end_lines",
    "C63_missing_sample_raises",
    "C63_seed_list_refuted",
    "C63_ignored_arguments",
    "C63_cal_v_const",
    "C63_zero_porosity_nan",
    "C63_cst_vels",
    "C63_cst_vels_beyond"
   ],
   "note": "Logs and seeds of any length; end-to-end example with two lines bounded by hand; refutations."
  },
  {
   "property": "C64",
   "status": "proved",
   "theorems": [
    "C64_screening",
    "C64_line_below_bound",
    "C64_bounds_ordered",
    "C64_bounds_ordered_refuted",
    "C64_normalize",
    "C64_normalize_refuted"
   ],
   "note": "Row-by-row description of the whole table, totality, ordering under a stated condition and its refutation for large stress."
  },
  {
   "property": "C65",
   "status": "proved",
   "theorems": [
    "C65_empty_prolate_pore_amplifies_refuted",
    "C65_empty_sphere_amplifies",
    "C65_prolate_is_eshelby_refuted",
    "C65_prolate_tends_to_sphere_refuted"
   ],
   "note": "Witness at aspect ratio 221/220; C65_prolate_is_eshelby_refuted and C65_prolate_tends_to_sphere_refuted state the cause for every prolate spheroid."
  },
  {
   "property": "C66",
   "status": "proved",
   "theorems": [
    "C66_perm_logs",
    "C66_owolabi",
    "C66_owolabi_positive_refuted"
   ],
   "note": ""
  },
  {
   "property": "C67",
   "status": "proved",
   "theorems": [
    "C67_bloch_monotone",
    "C67_bloch_units_refuted"
   ],
   "note": ""
  },
  {
   "property": "C68",
   "status": "proved",
   "theorems": [
    "C68_template_point",
    "C68_saturation_trend",
    "C68_vp_monotone_refuted"
   ],
   "note": "Numeric part of plot_rpt; C70 describes the figure."
  },
  {
   "property": "C69",
   "status": "proved",
   "theorems": [
    "C69_concentration_is_unique",
    "C69_pq_is_eshelby",
    "C69_vectorized_pq",
    "C69_eshelby_integral_is_unique",
    "C69_pq_from_eshelby_integral"
   ],
   "note": "Oblate and spherical shapes; Spec12.v states the improper integral. The prolate branch of the code computes theta with 1/cosh in place of arccosh; C65 treats it."
  },
  {
   "property": "C70",
   "status": "proved",
   "theorems": [
    "C70_template_figure",
    "C70_brine_line",
    "C70_brine_line_refuted",
    "C70_no_saturation_raises"
   ],
   "note": ""
  },
  {
   "property": "C71",
   "status": "proved",
   "theorems": [
    "C71_cst_figure",
    "C71_upper_bound_refuted",
    "C71_screening_figure",
    "C71_keyword_refuted",
    "C71_sample_mismatch_raises",
    "C71_diag_figure",
    "C71_kde_figure",
    "C71_kde_options_refuted"
   ],
   "note": ""
  },
  {
   "property": "C72",
   "status": "proved",
   "theorems": [
    "C72_estimate_pairs",
    "C72_fewer_velocities",
    "C72_more_velocities_raises"
   ],
   "note": ""
  },
  {
   "property": "C73",
   "status": "proved",
   "theorems": [
    "C73_gassmann_of_hs_dry",
    "C73_gassmann_without_frame",
    "C73_gassmann_within_bounds",
    "C73_self_consistent_within_hs",
    "C73_pore_iterations_agree"
   ],
   "note": "Exact identities and inequalities between functions of EM.py and Fluid.py."
  },
  {
   "property": "C74",
   "status": "proved",
   "theorems": [
    "C74_equal_shear_layers",
    "C74_two_layers_are_hill",
    "C74_thin_cracks",
    "C74_thin_crack_c11_refuted"
   ],
   "note": "C11 of Eshelby_Cheng does not tend to Hudson's value (C74_thin_crack_c11_refuted), a consequence of the extra term stated in C12."
  },
  {
   "property": "C75",
   "status": "proved",
   "theorems": [
    "C75_thomsen_parameters_exact",
    "C75_elliptical",
    "C75_mirror_angles",
    "C75_hti_is_rotated_vti"
   ],
   "note": "Exact identities and a fourth-order Taylor bound with explicit constant."
  },
  {
   "property": "C76",
   "status": "proved",
   "theorems": [
    "C76_sphere_least_disc_most",
    "C76_thin_disc_limit",
    "C76_opposite_contrast",
    "C76_dem_within_hs",
    "C76_dem_pores",
    "C76_dem_equal_shear_is_hill",
    "C76_dry_spheres_poisson",
    "C76_self_consistent_within_bounds",
    "C76_two_phases_within_hs"
   ],
   "note": "L_Shape.v writes P and Q as reciprocals of the eigenvalues of the concentration tensor: F2 = h F1 - e (theta - 2/3)^2 gives the bulk factor, an arithmetic-harmonic mean inequality and a chord (majorisation) argument give the shear factor at both ends. Comparison along the differential equation uses the invariant (1/(K+z) - 1/(Ki+z))/(1-t). The theorems on the differential scheme quantify over exact solutions, not over odeint's numerical output. The self-consistent theorem asks each phase to be softer or stiffer than the root in both moduli; for two phases this is derived."
  },
  {
   "property": "C77",
   "status": "proved",
   "theorems": [
    "C77_solution_exists",
    "C77_solution_unique",
    "C77_Berryman_DEM_determined",
    "C77_grid_reaches_one",
    "C77_two_batches",
    "C77_unit_free",
    "C77_full_replacement",
    "C77_dry_spheres_closed_form",
    "C77_recorded_test_value_refuted"
   ],
   "note": "Existence: Picard iteration for a globally Lipschitz system of two equations (L_Ode.v), applied to the right-hand side clamped to a box that trajectories do not leave (L_Dem2.v); empty pores need the ratio G/(K+4G/3) and ln G as unknowns. Uniqueness: a Gronwall estimate with Lipschitz bounds of the 9 spheroid coefficients on boxes (L_Dem.v), then a continuation argument so that positivity need not be assumed. odeint's numerical error is outside the model: the theorem on Berryman_DEM assumes a solver that returns values of a solution and np.arange in exact arithmetic (Spec14.v)."
  },
  {
   "property": "C78",
   "status": "proved",
   "theorems": [
    "C78_root_exists",
    "C78_berryman_sc_returns",
    "C78_two_phases_root_within_hs",
    "C78_few_pores_root",
    "C78_many_pores_no_root"
   ],
   "note": "Existence by a two-dimensional Poincare-Miranda theorem proved from scratch (L_Miranda.v: label changes around grid squares, then compactness), applied to the residuals, which are Lipschitz on the box of the phases' moduli and point inwards on its four sides (L_SelfCons.v). Pores: bounds of the spheroid coefficients that are uniform in the medium's moduli (L_SelfCons2.v). The threshold beyond which there is no root is explicit but not sharp."
  },
  {
   "property": "C79",
   "status": "proved",
   "theorems": [
    "C79_programs_utils",
    "C79_programs_EM",
    "C79_programs_Anisotropy",
    "C79_programs_Fluid",
    "C79_programs_GM",
    "C79_programs_Permeability",
    "C79_programs_Empirical",
    "C79_programs_BW",
    "C79_programs_AVO",
    "C79_programs_with_tests",
    "C79_straight",
    "C79_arrays_elementwise",
    "C79_array_shapes",
    "C79_arrays_python_floats",
    "C79_arrays_raise",
    "C79_arrays_lengths",
    "C79_tests_elementwise",
    "C79_tested_argument_refuted",
    "C79_hs_curve",
    "C79_hertzmindlin_curve",
    "C79_gassmann_shear"
   ],
   "note": "Each function is read as a program of assignments (a deep embedding generated from its model and proved equal to it for every input, C79_programs_*); NumPy's broadcasting is a second semantics of the same program, and the element-by-element theorems hold for every program. C79_tested_argument_refuted: an array of several elements cannot be the tested argument. Functions that add axes, build matrices, mask or iterate are not in the list (M_ArrayFns.v says which)."
  },
  {
   "property": "C80",
   "status": "proved",
   "theorems": [
    "C80_programs",
    "C80_grids_elementwise",
    "C80_grid_shapes",
    "C80_grids_python_floats",
    "C80_grid_sizes",
    "C80_aki_richards_table",
    "C80_grid_mismatch",
    "C80_aki_richards_one_angle",
    "C80_aki_richards_number_below_refuted",
    "C80_aki_richards_number_above_refuted",
    "C80_swiss_cheese_table",
    "C80_swiss_cheese_samples_refuted",
    "C80_swiss_cheese_one_shear_refuted",
    "C80_elastic_impedance_table",
    "C80_azimuthal_table"
   ],
   "note": "Second, two-dimensional semantics of the same programs (M_Grid.v): shapes, stretching of dimensions of size 1, newaxis, meshgrid. The four functions' models (AVO_Aki_Richards, EM_Swiss_cheese, AVO_EI_ref, AVO_HTI) are proved to be the elements of the tables. *_refuted: mixing numbers and arrays."
  },
  {
   "property": "C81",
   "status": "proved",
   "theorems": [
    "C81_no_rounding",
    "C81_rounding_vanishes",
    "C81_runs_exist",
    "C81_every_input",
    "C81_velocities",
    "C81_moduli_from_velocities",
    "C81_poisson_lame",
    "C81_crack_porosity",
    "C81_hs_lower",
    "C81_critical_porosity",
    "C81_gassmann",
    "C81_saturated_velocities",
    "C81_geertsma_smit",
    "C81_permeability",
    "C81_hertzmindlin",
    "C81_bulk_modulus_cancellation_refuted"
   ],
   "note": "Third semantics of the programs of M_Array.v (M_Round.v): every operation returns its exact result with a relative error of at most u, chosen freely; no overflow or underflow. accurate/rounded (Spec18.v) count the error in units of u. *_refuted: cancellation in M_from_V."
  },
  {
   "property": "C82",
   "status": "proved",
   "theorems": [
    "C82_least_energy",
    "C82_stiffer_layers",
    "C82_between_reuss_and_voigt",
    "C82_thomsen_signs",
    "C82_fast_along_layers_refuted"
   ],
   "note": "All clauses proved; the claim that P-waves are fastest along the layers is refuted."
  },
  {
   "property": "C83",
   "status": "proved",
   "theorems": [
    "C83_mixtures",
    "C83_porous_solids",
    "C83_grain_packs",
    "C83_cemented_sands",
    "C83_saturation",
    "C83_saturated_sand",
    "C83_in_proportion_refuted"
   ],
   "note": "All clauses proved; stiffening in proportion to the grains is refuted."
  },
  {
   "property": "C84",
   "status": "proved",
   "theorems": [
    "C84_utils",
    "C84_effective_media",
    "C84_cracks",
    "C84_anisotropy",
    "C84_fluids",
    "C84_granular",
    "C84_permeability",
    "C84_reflectivity",
    "C84_workflows",
    "C84_layers",
    "C84_inclusions",
    "C84_anisotropic_and_dispersive",
    "C84_packs_meshes_tables",
    "C84_arrays",
    "C84_SC_dilute_ratios",
    "C84_SC_dilute_refuted",
    "C84_Fredrich_inverse_area",
    "C84_Fredrich_refuted",
    "C84_johnson_refuted",
    "C84_raw_impedance_refuted"
   ],
   "note": "Every clause proved. Four functions are refuted: SC_dilute, Fredrich, johnson with path iso-uni, EI_ref with norm=False. Empirical regressions with fixed units are outside the claim."
  },
  {
   "property": "C85",
   "status": "proved",
   "theorems": [
    "C85_utils",
    "C85_EM",
    "C85_Anis",
    "C85_Fluid",
    "C85_GM",
    "C85_Perm",
    "C85_Emp",
    "C85_BW",
    "C85_AVO",
    "C85_cement",
    "C85_QI",
    "C85_VRH",
    "C85_Backus",
    "C85_Brie_refuted",
    "C85_matrix_refuted"
   ],
   "note": "Every clause proved. Two jumps are refuted: Brie at Sw = 0, e = 0 and matrix_modulus at vsh = 0 with M_sh = 0. Continuity is for real-number arithmetic; rounding is C81."
  },
  {
   "property": "C86",
   "status": "proved",
   "theorems": [
    "C86_machine_exists",
    "C86_quiet_runs",
    "C86_velocities",
    "C86_lame",
    "C86_poisson",
    "C86_crack_porosity",
    "C86_hs_lower",
    "C86_critical_porosity",
    "C86_gassmann",
    "C86_saturated_velocities",
    "C86_moduli_from_velocities",
    "C86_geertsma_smit",
    "C86_kozeny_carman",
    "C86_panda_lake",
    "C86_fredrich",
    "C86_hertzmindlin",
    "C86_overflow_refuted",
    "C86_underflow_refuted"
   ],
   "note": "Doubles and their operations are Flocq's binary64 (M_Double.v); Flocq adds no axiom. The C library and the reading of literals are parameters with stated accuracy (Spec22.v); C86_machine_exists shows that they can be met. Python's own OverflowError is not modelled. *_refuted: overflow in V, underflow in crack_por."
  },
  {
   "property": "C87",
   "status": "proved",
   "theorems": [
    "C87_results_from_contents",
    "C87_calls_keep_arrays",
    "C87_results_are_new",
    "C87_gassmann_returns_its_argument",
    "C87_masked_results_are_new",
    "C87_diluting",
    "C87_porosity_segment",
    "C87_cst_vels",
    "C87_only_aspect_ratios_change",
    "C87_pq_vectorize",
    "C87_berryman_func",
    "C87_exception_keeps_changes",
    "C87_calls_depend_on_contents",
    "C87_sessions_keep_arrays",
    "C87_sessions_repeat_calls",
    "C87_aspect_ratios_refuted",
    "C87_gassmann_alias_refuted"
   ],
   "note": "Fourth semantics of the programs of M_Array.v, with a store of mutable arrays (M_Store.v). Of cst_vels the lines after the matrix density are run on arrays; the density is that of M_QI.v. Integer arrays and views are outside. *_refuted: the aspect ratios of PQ_vectorize and the shear moduli of Gassmann."
  },
  {
   "property": "C88",
   "status": "proved",
   "theorems": [
    "C88_programs",
    "C88_python_integers",
    "C88_integer_arrays",
    "C88_table",
    "C88_other_functions",
    "C88_hs_integer_moduli_refuted",
    "C88_integer_tortuosity_refuted",
    "C88_brie_negative_exponent_refuted",
    "C88_brie_value_error",
    "C88_hs_value_error",
    "C88_overflow_refuted"
   ],
   "note": "Fifth semantics of the programs of M_Array.v, with Python integers and 64-bit integer arrays (M_Int.v). One-dimensional arrays; numpy integer scalars count as arrays of one element. *_refuted: HS, the two high-frequency limits, overflow in hertzmindlin."
  },
  {
   "property": "C89",
   "status": "proved",
   "theorems": [
    "C89_straight",
    "C89_programs",
    "C89_arrays",
    "C89_VRH",
    "C89_Backus",
    "C89_normalize_refuted",
    "C89_diluting_refuted",
    "C89_EI_normalised_refuted",
    "C89_estimate_cem_refuted",
    "C89_ramm_segment",
    "C89_cst_vels"
   ],
   "note": "A result the model leaves open (Und: powers with infinite operands, complex Python powers) counts as no number. Arrays for the 78 functions without a test; the seven with tests for single samples. *_refuted: normalize, EI_ref with norm, estimate_cem, diluting (see also C60 for the segmented velocity trends)."
  },
  {
   "property": "C90",
   "status": "proved",
   "theorems": [
    "C90_critical_porosity",
    "C90_hashin_shtrikman",
    "C90_sands",
    "C90_constant_cement",
    "C90_contact_cement",
    "C90_pack_pressure",
    "C90_gassmann",
    "C90_brie",
    "C90_kozeny_carman",
    "C90_krief",
    "C90_swiss_cheese",
    "C90_poisson",
    "C90_StPeter",
    "C90_template",
    "C90_vp_saturation_refuted",
    "C90_suspension",
    "C90_suspension_refuted",
    "C90_yu_gap_refuted"
   ],
   "note": "Exact ranges with their ends; the arithmetic is exact (C81, C86 for rounding). Soft and stiff sand, constant cement and MUHS assume the end member softer than the grains, contact cement the range of its fits (as C37-C39). *_refuted: Vp against saturation, velocity of a suspension, the segmented velocity trend."
  },
  {
   "property": "C91",
   "status": "proved",
   "theorems": [
    "C91_programs",
    "C91_plain_python",
    "C91_no_lists",
    "C91_where_lists",
    "C91_takes_lists",
    "C91_mixed",
    "C91_poi_refuted"
   ],
   "note": "84 of the 85 programs of C88 (not QI.matrix_modulus). Lists of floats, one-dimensional arrays. A NumPy number next to a list may raise TypeError or take the list as an array; both are covered. *_refuted: poi with an array and a list."
  },
  {
   "property": "C92",
   "status": "proved",
   "theorems": [
    "C92_pick",
    "C92_order",
    "C92_cut",
    "C92_join",
    "C92_matrix_modulus_refuted"
   ],
   "note": "The programs of C79_straight, run on arrays of one common length and numbers. *_refuted: matrix_modulus, because of its test."
  },
  {
   "property": "C93",
   "status": "proved",
   "theorems": [
    "C93_same",
    "C93_equal",
    "C93_beside_arrays",
    "C93_equal_beside_arrays",
    "C93_numpy_never_raises",
    "C93_python_only_zero_division",
    "C93_indifferent",
    "C93_no_division_never_raises",
    "C93_visible_zero_division_refuted",
    "C93_complex_results"
   ],
   "note": "Any program of M_Array's language, run on numbers that are not exceptions. Und stands for Python's complex results. *_refuted: HS between equal phases."
  }
 ]
}