{
 "claims": [
  {
   "property": "C01",
   "status": "proved",
   "theorems": [
    "C01_partition_of_unity"
   ],
   "note": ""
  },
  {
   "property": "C02",
   "status": "proved",
   "theorems": [
    "C02_weights_in_unit_interval",
    "C02_weights_sum_at_most_one"
   ],
   "note": ""
  },
  {
   "property": "C03",
   "status": "proved",
   "theorems": [
    "C03_gradients_sum_to_zero"
   ],
   "note": ""
  },
  {
   "property": "C04",
   "status": "proved",
   "theorems": [
    "C04_reproduces_position",
    "C04_weighted_rel_dist_zero"
   ],
   "note": ""
  },
  {
   "property": "C05",
   "status": "partial",
   "theorems": [
    "C05_gradients_reproduce_linear_fields_partial",
    "C05_linear_kernel_on_grid_line",
    "C05_gradients_reproduce_linear_fields_refuted"
   ],
   "note": "Holds for quadratic and cubic kernels and for the linear kernel off grid lines. Finding: on a grid line the linear kernel's gradient at the node is 0 (sign(0)) and the neighbours' gradients are 0, so the velocity gradient along that axis is lost (C05_linear_kernel_on_grid_line)."
  },
  {
   "property": "C06",
   "status": "proved",
   "theorems": [
    "C06_gradient_is_derivative",
    "C06_smooth_kernels_differentiable"
   ],
   "note": ""
  },
  {
   "property": "C07",
   "status": "proved",
   "theorems": [
    "C07_indices_in_range",
    "C07_each_pair_once_in_order"
   ],
   "note": ""
  },
  {
   "property": "C08",
   "status": "proved",
   "theorems": [
    "C08_hash_position_distance_agree",
    "C08_slots_distinct"
   ],
   "note": ""
  },
  {
   "property": "C09",
   "status": "proved",
   "theorems": [
    "C09_outside_nodes_get_nothing"
   ],
   "note": ""
  },
  {
   "property": "C10",
   "status": "proved",
   "theorems": [
    "C10_stencil_complete"
   ],
   "note": ""
  },
  {
   "property": "C11",
   "status": "proved",
   "theorems": [
    "C11_padded_grid_contains_stencils",
    "C11_one_layer_not_enough_for_quadratic"
   ],
   "note": "Exact arithmetic. The quadratic kernel needs two layers unless the box is a whole number of cells (C11_one_layer_not_enough_for_quadratic)."
  },
  {
   "property": "C12",
   "status": "proved",
   "theorems": [
    "C12_numbering_bijective"
   ],
   "note": ""
  },
  {
   "property": "C13",
   "status": "proved",
   "theorems": [
    "C13_scatter_conserves",
    "C13_constant_field_unchanged",
    "C13_averages_stay_in_range"
   ],
   "note": ""
  },
  {
   "property": "C14",
   "status": "partial",
   "theorems": [
    "C14_gather_from_grid_refuted",
    "C14_gather_body_partial",
    "C14_gather_body_constant_partial"
   ],
   "note": "Finding: gather_from_grid reads cache.window_size, which InteractionCache does not have, so every call raises AttributeError. The code after the lookup interpolates correctly."
  },
  {
   "property": "C15",
   "status": "proved",
   "theorems": [
    "C15_p2g_mass"
   ],
   "note": ""
  },
  {
   "property": "C16",
   "status": "proved",
   "theorems": [
    "C16_p2g_momentum"
   ],
   "note": ""
  },
  {
   "property": "C17",
   "status": "proved",
   "theorems": [
    "C17_internal_forces_balance"
   ],
   "note": ""
  },
  {
   "property": "C18",
   "status": "partial",
   "theorems": [
    "C18_last_body_force_partial",
    "C18_single_body_force_partial",
    "C18_superposition_refuted"
   ],
   "note": "Finding: P2G starts each coupling's force scatter from zeros and overwrites the grid's force stack, so with several bodies on one grid only the last active coupling's internal forces survive."
  },
  {
   "property": "C19",
   "status": "proved",
   "theorems": [
    "C19_momentum_impulse"
   ],
   "note": ""
  },
  {
   "property": "C20",
   "status": "proved",
   "theorems": [
    "C20_uniform_motion"
   ],
   "note": ""
  },
  {
   "property": "C21",
   "status": "partial",
   "theorems": [
    "C21_usl_alpha_partial",
    "C21_aflip_alpha_partial",
    "C21_alpha_documented_refuted"
   ],
   "note": "Finding: both docstrings are reversed; alpha = 0 is PIC and alpha = 1 is FLIP."
  },
  {
   "property": "C22",
   "status": "proved",
   "theorems": [
    "C22_bookkeeping",
    "C22_time_over_reals"
   ],
   "note": ""
  },
  {
   "property": "C23",
   "status": "proved",
   "theorems": [
    "C23_rigid_untouched"
   ],
   "note": ""
  },
  {
   "property": "C24",
   "status": "partial",
   "theorems": [
    "C24_plane_strain_partial",
    "C24_out_of_plane_zero_partial",
    "C24_reset_zeroes_F22_refuted",
    "C24_plane_strain_refuted"
   ],
   "note": "Proved for laws that do not reset F; with any law everything but F22 stays planar. Finding: the 2-D reset rebuilds F with F22 = 0, so a resetting law leaves plane strain."
  },
  {
   "property": "C25",
   "status": "proved",
   "theorems": [
    "C25_volume_after_g2p",
    "C25_volume_over_steps"
   ],
   "note": ""
  },
  {
   "property": "C26",
   "status": "partial",
   "theorems": [
    "C26_aflip_gradient",
    "C26_usl_gradient_partial",
    "C26_usl_gradient_refuted"
   ],
   "note": "Holds for USLAFLIP. Finding: USLSolver stores the transposed velocity gradient (outer(grad, v) instead of outer(v, grad))."
  },
  {
   "property": "C27",
   "status": "partial",
   "theorems": [
    "C27_particle_forces_ignored",
    "C27_particle_forces_act_refuted"
   ],
   "note": "Finding: the force stack of every coupled body is zeroed at the start of a step, so user forces never act."
  },
  {
   "property": "C28",
   "status": "partial",
   "theorems": [
    "C28_masks_are_one",
    "C28_computed_mask_range",
    "C28_wall_blocks_refuted"
   ],
   "note": "Finding: the computed compatibility mask is replaced by jnp.ones_like(mask)."
  },
  {
   "property": "C29",
   "status": "partial",
   "theorems": [
    "C29_sdf_states_partial",
    "C29_sdf_state_count",
    "C29_sdf_subset_refuted"
   ],
   "note": "Holds when the solver has one SDF logic per SDF state. Finding: with a subset the state list shrinks and logics are paired with the wrong states."
  },
  {
   "property": "C30",
   "status": "partial",
   "theorems": [
    "C30_own_rows_partial",
    "C30_last_kernel_rows",
    "C30_own_shape_refuted"
   ],
   "note": "Holds when couplings of one body and grid agree on the shape functions. Finding: interactions are stored by (p_idx, g_idx), the last coupling wins."
  },
  {
   "property": "C31",
   "status": "partial",
   "theorems": [
    "C31_repeated_steps_partial",
    "C31_single_particle_refuted"
   ],
   "note": "Finding: a body with one particle loses the axis of its volume stack (.squeeze()), so the second step fails."
  },
  {
   "property": "C32",
   "status": "proved",
   "theorems": [
    "C32_scatter_order",
    "C32_scatter_order_mass",
    "C32_p2g_any_row_order",
    "C32_p2g_usl_renumber",
    "C32_p2g_aflip_renumber",
    "C32_g2p_usl_renumber",
    "C32_g2p_aflip_renumber",
    "C32_renumber_is_permutation"
   ],
   "note": ""
  },
  {
   "property": "C33",
   "status": "proved",
   "theorems": [
    "C33_translation_invariance",
    "C33_whole_cell_shift"
   ],
   "note": ""
  },
  {
   "property": "C34",
   "status": "proved",
   "theorems": [
    "C34_p2g_affine",
    "C34_step_affine",
    "C34_stored_affine"
   ],
   "note": ""
  },
  {
   "property": "C35",
   "status": "partial",
   "theorems": [
    "C35_speed_limit_partial",
    "C35_displacement_refuted"
   ],
   "note": "The speed is limited; finding: the position update uses the unlimited velocity."
  },
  {
   "property": "C36",
   "status": "partial",
   "theorems": [
    "C36_dynamic_alpha_range",
    "C36_default_thresholds_partial",
    "C36_thresholds_refuted"
   ],
   "note": "Range proved. Finding: alpha_support_min / alpha_support_max are never read; 1.1 and 0.4 are hard-coded."
  },
  {
   "property": "C37",
   "status": "partial",
   "theorems": [
    "C37_affine_ownership_partial",
    "C37_affine_ownership_refuted"
   ],
   "note": "Holds when s_idx = p_idx. Finding: P2G reads solver_states[s_idx], G2P writes solver_states[p_idx]; other coupling orders mix the bodies."
  },
  {
   "property": "C38",
   "status": "partial",
   "theorems": [
    "C38_classic_apic_refuted"
   ],
   "note": "Finding: use_mls_update=False raises AttributeError in every step (BodyCoupling has no shapefunction)."
  },
  {
   "property": "C39",
   "status": "partial",
   "theorems": [
    "C39_plane_partial",
    "C39_defaults",
    "C39_volume_3d_refuted",
    "C39_points_per_cell_refuted",
    "C39_supplied",
    "C39_lengths"
   ],
   "note": "2-D and explicit volumes hold. Findings: the default volume is cell_size**2/ppc also in 3-D; a keyword points_per_cell is not the argument name the dispatcher reads."
  },
  {
   "property": "C40",
   "status": "proved",
   "theorems": [
    "C40_density",
    "C40_kinetic_energy"
   ],
   "note": ""
  },
  {
   "property": "C41",
   "status": "proved",
   "theorems": [
    "C41_increment",
    "C41_linear",
    "C41_path_independent",
    "C41_closed_path",
    "C41_isotropic"
   ],
   "note": ""
  },
  {
   "property": "C42",
   "status": "proved",
   "theorems": [
    "C42_relations",
    "C42_positive",
    "C42_stored"
   ],
   "note": ""
  },
  {
   "property": "C43",
   "status": "partial",
   "theorems": [
    "C43_sign_refuted",
    "C43_magnitude_partial"
   ],
   "note": "Magnitude proved. Finding: the stress is -p I + ... under a compression-positive convention, so a compressed fluid pulls."
  },
  {
   "property": "C44",
   "status": "partial",
   "theorems": [
    "C44_inverse",
    "C44_create_then_update",
    "C44_create_state_refuted"
   ],
   "note": "Density reference proved. Finding: NewtonFluid.create_state raises TypeError."
  },
  {
   "property": "C45",
   "status": "partial",
   "theorems": [
    "C45_stress_partial",
    "C45_coefficient",
    "C45_friction_refuted",
    "C45_disconnected",
    "C45_initial_pressure"
   ],
   "note": "Finding: the shear stress is half of mu(I) p."
  },
  {
   "property": "C46",
   "status": "partial",
   "theorems": [
    "C46_nondilatant_partial",
    "C46_dilatant_refuted"
   ],
   "note": "Holds for mu_1_hat = 0. Finding: with dilatancy the pressure correction has the wrong sign for the tension-negative trial and the returned stress is outside the yield surface."
  },
  {
   "property": "C47",
   "status": "partial",
   "theorems": [
    "C47_monotone_partial",
    "C47_cohesionless",
    "C47_apex_refuted"
   ],
   "note": "Finding: a return to the apex decreases the accumulated plastic strain when mu_2 > 0."
  },
  {
   "property": "C48",
   "status": "proved",
   "theorems": [
    "C48_drucker_prager",
    "C48_mu_i",
    "C48_cam_clay"
   ],
   "note": ""
  },
  {
   "property": "C49",
   "status": "proved",
   "theorems": [
    "C49_state"
   ],
   "note": ""
  },
  {
   "property": "C50",
   "status": "partial",
   "theorems": [
    "C50_elastic",
    "C50_trial_yield",
    "C50_floor_refuted"
   ],
   "note": "Holds above p_min. Finding: below p_min the deviator is taken about p_min and the pressure keeps the deficit."
  },
  {
   "property": "C51",
   "status": "partial",
   "theorems": [
    "C51_space",
    "C51_plane_refuted",
    "C51_off"
   ],
   "note": "3-D proved. Finding: in 2-D the out-of-plane stretch becomes 0, the determinant 0."
  },
  {
   "property": "C52",
   "status": "proved",
   "theorems": [
    "C52_grid_gravity",
    "C52_gravity_deforms_nothing",
    "C52_free_fall"
   ],
   "note": ""
  },
  {
   "property": "C53",
   "status": "partial",
   "theorems": [
    "C53_particle_gravity_refuted"
   ],
   "note": "Finding: Gravity.apply_pre_p2g assigns mp_states[self.p_idx], an attribute that does not exist; every step raises AttributeError."
  },
  {
   "property": "C54",
   "status": "proved",
   "theorems": [
    "C54_component",
    "C54_grid_damping"
   ],
   "note": ""
  },
  {
   "property": "C55",
   "status": "partial",
   "theorems": [
    "C55_contact",
    "C55_short_normal",
    "C55_node",
    "C55_collider",
    "C55_light_node_refuted"
   ],
   "note": "Proved for nodes heavier than 1e-14 and unit normals, with a bound for the slightly short normals of the library. Finding: lighter nodes lose their momentum even far from the wall."
  },
  {
   "property": "C56",
   "status": "partial",
   "theorems": [
    "C56_friction_refuted",
    "C56_gap_refuted"
   ],
   "note": "Finding: the gap never has an effect because bias_factor is 0; add_sdf_collider drops its friction argument."
  },
  {
   "property": "C57",
   "status": "partial",
   "theorems": [
    "C57_contact_refuted"
   ],
   "note": "Finding: GridContact.apply_grid_moments takes 7 positional arguments, the solver passes 8; every step with a contact raises TypeError."
  },
  {
   "property": "C58",
   "status": "proved",
   "theorems": [
    "C58_node_contact"
   ],
   "note": ""
  },
  {
   "property": "C59",
   "status": "partial",
   "theorems": [
    "C59_position",
    "C59_force_state_partial",
    "C59_force_state",
    "C59_solver_state_partial",
    "C59_force_state_refuted",
    "C59_solver_state_refuted"
   ],
   "note": "Positions proved for every script of calls. Force states proved when no collider (or failed gravity) came before, and the exact offset otherwise; solver states proved for the first solver made from all couplings. Findings: colliders register no state, so a gravity or damping added after one reads its neighbour's state or none; a solver for a sub-list of couplings finds its states at wrong indices."
  },
  {
   "property": "C60",
   "status": "partial",
   "theorems": [
    "C60_resolved",
    "C60_partial",
    "C60_refuted",
    "C60_law_refuted"
   ],
   "note": "Exact criterion proved, hence correct for one grid/law or one per coupling in order. Finding: grids and laws are stored per coupling but indexed by the global index, so couplings [grid 1; grid 0] swap their grids (and likewise their laws)."
  },
  {
   "property": "C61",
   "status": "partial",
   "theorems": [
    "C61_rejected",
    "C61_unchanged_partial",
    "C61_spellings",
    "C61_unchanged_refuted"
   ],
   "note": "Rejection proved for every other string; builder unchanged when no rigid body is coupled. Finding: with a rigid body coupled, a None is left among the solver states."
  },
  {
   "property": "C62",
   "status": "partial",
   "theorems": [
    "C62_domain_partial",
    "C62_refuted",
    "C62_given"
   ],
   "note": "Proved for DomainSDF and for a given centre. Finding: for every other class get_world_aabb fails, so the call is a TypeError."
  },
  {
   "property": "C63",
   "status": "partial",
   "theorems": [
    "C63_kept_partial",
    "C63_accepted",
    "C63_defaults",
    "C63_refuted"
   ],
   "note": "Proved for every law but linear elasticity. Finding: for LinearElasticLaw the supplied state is dropped and None stored."
  },
  {
   "property": "C64",
   "status": "proved",
   "theorems": [
    "C64_sphere",
    "C64_sphere_lipschitz",
    "C64_plane",
    "C64_plane_lipschitz"
   ],
   "note": ""
  },
  {
   "property": "C65",
   "status": "partial",
   "theorems": [
    "C65_box",
    "C65_capsule",
    "C65_cylinder",
    "C65_torus",
    "C65_sign_refuted"
   ],
   "note": "Sign characterised exactly for box, capsule, cylinder and torus. Finding: the smoothed norm makes a layer of 1e-6 inside the surface count as outside."
  },
  {
   "property": "C66",
   "status": "proved",
   "theorems": [
    "C66_union",
    "C66_friction"
   ],
   "note": ""
  },
  {
   "property": "C67",
   "status": "partial",
   "theorems": [
    "C67_domain",
    "C67_offset_refuted"
   ],
   "note": "Proved for the box shifted by the offset. Finding: wall_offset is added to both corners, so the container is translated; the upper walls move outwards."
  },
  {
   "property": "C68",
   "status": "partial",
   "theorems": [
    "C68_distance",
    "C68_friction",
    "C68_normal",
    "C68_refuted"
   ],
   "note": "Distance, friction and normal proved for every shape but DomainSDF. Finding: DomainSDF ignores its state, it does not move with it."
  },
  {
   "property": "C69",
   "status": "partial",
   "theorems": [
    "C69_translation",
    "C69_quaternion_length",
    "C69_quaternion_motion",
    "C69_unit_refuted",
    "C69_domain_refuted"
   ],
   "note": "Translation and 2-D angle proved; the 3-D orientation stays within 1e-12 of unit length for every number of steps and equals the iterated increment up to a positive factor. It is never exactly a unit quaternion after an update, and DomainSDF does not move."
  },
  {
   "property": "C70",
   "status": "partial",
   "theorems": [
    "C70_pipe",
    "C70_side_view",
    "C70_height_refuted"
   ],
   "note": "The 2-D side view respects the height. Finding: in 3-D the vertical distance is the signed coordinate, the height is never read: the pipe extends infinitely downwards and ends at its centre."
  },
  {
   "property": "C71",
   "status": "proved",
   "theorems": [
    "C71_selected",
    "C71_state",
    "C71_sphere",
    "C71_box"
   ],
   "note": ""
  },
  {
   "property": "C72",
   "status": "partial",
   "theorems": [
    "C72_candidates",
    "C72_cells",
    "C72_in_cell_partial",
    "C72_in_cell_refuted",
    "C72_coincident_refuted",
    "C72_count"
   ],
   "note": "Candidates, their cells and their number proved; inside the cell proved when cell_size exceeds (2k-1)/(2k). Finding: the offsets inside a cell are not scaled by cell_size, so for smaller cells candidates lie outside their cell, and the candidates of neighbouring cells coincide when cell_size = m/k."
  },
  {
   "property": "C73",
   "status": "partial",
   "theorems": [
    "C73_regular_partial",
    "C73_random_partial",
    "C73_other_refuted"
   ],
   "note": "Modes regular and random proved. Finding: the other documented modes, including the default of the argument (uniform), always raise."
  },
  {
   "property": "C74",
   "status": "proved",
   "theorems": [
    "C74_names",
    "C74_recovered",
    "C74_genuine"
   ],
   "note": ""
  },
  {
   "property": "C75",
   "status": "proved",
   "theorems": [
    "C75_kept",
    "C75_elsewhere",
    "C75_cleared"
   ],
   "note": ""
  },
  {
   "property": "C76",
   "status": "proved",
   "theorems": [
    "C76_undrained_isochoric"
   ],
   "note": ""
  },
  {
   "property": "C77",
   "status": "partial",
   "theorems": [
    "C77_snapshots_partial",
    "C77_remainder",
    "C77_snapshots_refuted"
   ],
   "note": "Proved when stride divides num_steps. Finding: otherwise run raises TypeError (reshape), although the docstring offers any stride."
  },
  {
   "property": "C78",
   "status": "partial",
   "theorems": [
    "C78_argument_partial",
    "C78_configuration_refuted"
   ],
   "note": "The argument of step is honoured. Finding: the field is_F_linear_approx is never read."
  },
  {
   "property": "C79",
   "status": "partial",
   "theorems": [
    "C79_phi_e_inverse",
    "C79_e_phi_inverse",
    "C79_bulk_density_refuted",
    "C79_phi_from_L"
   ],
   "note": "Finding: the void ratio obtained from the bulk density is off by one."
  },
  {
   "property": "C80",
   "status": "proved",
   "theorems": [
    "C80_shear",
    "C80_split",
    "C80_q",
    "C80_q_shift",
    "C80_triaxial",
    "C80_triaxial_inverse"
   ],
   "note": ""
  },
  {
   "property": "C81",
   "status": "proved",
   "theorems": [
    "C81_split",
    "C81_jaumann",
    "C81_unchanged",
    "C81_size"
   ],
   "note": ""
  },
  {
   "property": "C82",
   "status": "proved",
   "theorems": [
    "C82_inv3",
    "C82_inv2",
    "C82_clip"
   ],
   "note": ""
  },
  {
   "property": "C83",
   "status": "partial",
   "theorems": [
    "C83_dev_strain_stack_refuted",
    "C83_scalar_shear_strain_refuted",
    "C83_scalar_shear_strain_partial"
   ],
   "note": "Findings: the deviatoric strain stack helper recurses into itself; get_scalar_shear_strain raises TypeError when called without dev_strain."
  },
  {
   "property": "C84",
   "status": "partial",
   "theorems": [
    "C84_dt_crit_partial",
    "C84_drucker_prager_refuted",
    "C84_cam_clay_refuted"
   ],
   "note": "Proved for linear elasticity, Newtonian fluid, mu(I). Findings: DruckerPrager.get_dt_crit reads rho_stack (AttributeError); ModifiedCamClay has no get_dt_crit."
  },
  {
   "property": "C85",
   "status": "partial",
   "theorems": [
    "C85_node_count_exact_partial",
    "C85_node_count_binary64_refuted"
   ],
   "note": "True in exact arithmetic. Finding: int(raw+1) truncates a binary64 quotient, e.g. origin 0, end 1, cell_size 0.1, padding 2 gives 14 nodes instead of 15."
  },
  {
   "property": "C86",
   "status": "proved",
   "theorems": [
    "C86_gravity_momentum"
   ],
   "note": ""
  },
  {
   "property": "C87",
   "status": "proved",
   "theorems": [
    "C87_virial",
    "C87_no_torque",
    "C87_nodal_virial"
   ],
   "note": ""
  },
  {
   "property": "C88",
   "status": "partial",
   "theorems": [
    "C88_particle_damping_ignored",
    "C88_particle_damping_refuted"
   ],
   "note": "Finding: particle forces are zero when the hook runs (reset at the start of the step), so damping on particles does nothing."
  },
  {
   "property": "C89",
   "status": "proved",
   "theorems": [
    "C89_velocity",
    "C89_every_point"
   ],
   "note": ""
  },
  {
   "property": "C90",
   "status": "proved",
   "theorems": [
    "C90_cloud",
    "C90_sign",
    "C90_radius"
   ],
   "note": ""
  },
  {
   "property": "C91",
   "status": "partial",
   "theorems": [
    "C91_refuted",
    "C91_rigid_coupling"
   ],
   "note": "Finding: a rigid coupling has no law, and the solver constructors reject a None among the laws, whatever the selection and scheme."
  },
  {
   "property": "C92",
   "status": "partial",
   "theorems": [
    "C92_array_partial",
    "C92_tuple_refuted"
   ],
   "note": "Proved for arrays. Finding: a tuple is a TypeError (field annotation) and the force logic stays registered."
  },
  {
   "property": "C93",
   "status": "partial",
   "theorems": [
    "C93_refuted",
    "C93_partial"
   ],
   "note": "With overwrite=False the run is kept and returned. Finding: the documented recipe uses the default overwrite=True, which deletes the saved run."
  },
  {
   "property": "C94",
   "status": "partial",
   "theorems": [
    "C94_axial_strain_partial",
    "C94_constant_rate",
    "C94_static",
    "C94_axial_strain_refuted"
   ],
   "note": "Proved for arrays of rates and time steps with stride 1. Finding: for a constant rate every entry but the last of a stride 1 run is wrong (linspace starts at 0 and spreads n points over n steps); with start_static, as in the project scripts, every listed strain is the true one times n/(n-1) (C94_static)."
  },
  {
   "property": "C95",
   "status": "partial",
   "theorems": [
    "C95_stress_density_partial",
    "C95_stress_density_refuted"
   ],
   "note": "Finding: the law sees the volume of before the step; the returned stress belongs to the previous density (witness: Newtonian fluid)."
  },
  {
   "property": "C96",
   "status": "partial",
   "theorems": [
    "C96_confinement_partial",
    "C96_elastic_limit_partial",
    "C96_confinement_refuted"
   ],
   "note": "Exact error for linear elasticity: one fifth per iteration, hence the limit. Finding: for a Newtonian fluid the stress of a step does not depend on the lateral rate (C95), the iteration never moves and the pressure is not controlled. Other laws not covered."
  },
  {
   "property": "C97",
   "status": "partial",
   "theorems": [
    "C97_step_partial",
    "C97_run_space_partial",
    "C97_run_plane_partial",
    "C97_usl_store_refuted",
    "C97_store_starts"
   ],
   "note": "Proved for steps and runs of solvers whose laws do not reset F (a reset replaces F, see C51 and C125). Finding: the USL solver never updates F_store_stack (usl.py 718-729 writes F_stack only), so a stored gradient stays at its initial value; USL_ASFLIP updates it."
  },
  {
   "property": "C98",
   "status": "proved",
   "theorems": [
    "C98_galilean"
   ],
   "note": "Two-run theorem: existence of the boosted step and equality of everything but position and velocity. Hypotheses: interior points, one active coupling per body, gravity-only forces, nodes above the mass cutoff."
  },
  {
   "property": "C99",
   "status": "partial",
   "theorems": [
    "C99_once",
    "C99_idle",
    "C99_elastic_run",
    "C99_two_grids_refuted"
   ],
   "note": "Proved when each body and each law state has one active coupling. Finding: a body coupled to two grids has its law evaluated (and its strain increment counted) twice per step (usl.py 743-766 walks couplings, not bodies); C99_two_grids_refuted shows the elastic stress is that of 2 dt."
  },
  {
   "property": "C100",
   "status": "partial",
   "theorems": [
    "C100_aflip_partial",
    "C100_usl",
    "C100_near_wall_refuted"
   ],
   "note": "The beta switch is proved for cells up to 1e9. Finding: usl_asflip.py 343 sets min_dist_to_wall to 1e9 and the code that would compute it is commented out, so 'CPIC safety: disable correction when near wall' never acts: C100_near_wall_refuted."
  },
  {
   "property": "C101",
   "status": "partial",
   "theorems": [
    "C101_table",
    "C101_range",
    "C101_samples_partial",
    "C101_accuracy_partial",
    "C101_samples_refuted",
    "C101_placed",
    "C101_plane_refuted"
   ],
   "note": "Range and accuracy for all tables; samples reproduced to 3e-12 of the scale. Finding (tiny): exact reproduction is false because gridsdf.py 68 divides by grid_size + 1e-12, which shifts every index coordinate."
  },
  {
   "property": "C102",
   "status": "partial",
   "theorems": [
    "C102_lipschitz",
    "C102_clamped",
    "C102_bounds_partial",
    "C102_bounds_refuted",
    "C102_gradient",
    "C102_normal_refuted"
   ],
   "note": "Lipschitz bound, derivative and clamping proved for every table; containment in get_local_bounds proved when the face samples lie outside the thickened body. Findings: (1) if the thickness reaches a face of the table the body extends to infinity (mode='nearest' clamps), so get_local_bounds, which is enlarged by the thickness, does not contain it; (2) beyond a corner of the table the gradient vanishes and the normal is the zero vector."
  },
  {
   "property": "C103",
   "status": "partial",
   "theorems": [
    "C103_restitution_refuted",
    "C103_energy_partial",
    "C103_energy_refuted"
   ],
   "note": "Exact rebound velocity for all states; energy bound proved for receivers no heavier than the actor. Finding: gridcontact.py 207-216 gives the actor the receiver's whole impulse m_r v_n instead of the one of the reduced mass, so the pair rebounds with restitution m_r/m_a (never 0) and a heavy receiver multiplies the energy (witness 3 kg on 1 kg: three times)."
  },
  {
   "property": "C104",
   "status": "partial",
   "theorems": [
    "C104_lines_partial",
    "C104_specific_volume",
    "C104_cycle_refuted",
    "C104_floor_refuted"
   ],
   "note": "Exact relation along any history of connected increments. Findings: a closed cycle of velocity gradients does not return the grid volume the stress state assumes ((1+e)(1-e) < 1 while exp(e)exp(-e) = 1), and below the pressure floor the volume relation fails."
  },
  {
   "property": "C105",
   "status": "partial",
   "theorems": [
    "C105_linear_elastic",
    "C105_cam_clay_partial",
    "C105_drucker_prager_partial",
    "C105_drucker_prager_refuted"
   ],
   "note": "Finding: DruckerPragerState stores only the mean of the initial stress (druckerprager.py 75-86), the deviator is lost in the first step at rest."
  },
  {
   "property": "C106",
   "status": "partial",
   "theorems": [
    "C106_shear_partial",
    "C106_shear_refuted",
    "C106_from_stress",
    "C106_from_density",
    "C106_unusable_refuted"
   ],
   "note": "Findings: modifiedcamclay.py 241-243 compares the absolute distance to the yield surface, so a shear stress inside is replaced by the one on the surface; states from create_state_from_stress and create_state_from_density have no stress_ref_stack, so the first update raises; create_state raises (jnp.full called with a float shape)."
  },
  {
   "property": "C107",
   "status": "proved",
   "theorems": [
    "C107_isotropic"
   ],
   "note": "Cam-Clay needs admissible parameters (mcc_params): with a zero return factor jnp.where(x, x, d) acts component by component."
  },
  {
   "property": "C108",
   "status": "partial",
   "theorems": [
    "C108_usl_partial",
    "C108_aflip_refuted",
    "C108_elastic_refuted"
   ],
   "note": "USL carries correctly because it stores the transposed gradient (C26). Findings: with USL_ASFLIP, which stores minus the gradient, Drucker-Prager and Cam-Clay turn their stress against the motion; linear elasticity does not turn the stress at all."
  },
  {
   "property": "C109",
   "status": "partial",
   "theorems": [
    "C109_memory_partial",
    "C109_reconnect_refuted"
   ],
   "note": "Holds in every connected branch. Finding: a separated point has zero stress and zero strain but keeps p0, so a step at rest after it touches again puts it at the initial pressure at once."
  },
  {
   "property": "C110",
   "status": "proved",
   "theorems": [
    "C110_newton",
    "C110_mu_i"
   ],
   "note": ""
  },
  {
   "property": "C111",
   "status": "proved",
   "theorems": [
    "C111_usl",
    "C111_aflip",
    "C111_second_moment",
    "C111_grid_update",
    "C111_free_step",
    "C111_flip"
   ],
   "note": "Hypotheses of P2G: interior points and one kernel per (body, grid) (C30). Grid update for a single active body because of C18. The loss of the share 1 - alpha is exact (C111_free_step)."
  },
  {
   "property": "C112",
   "status": "proved",
   "theorems": [
    "C112_step",
    "C112_run"
   ],
   "note": "USL only: with AFLIP the affine matrices can extrapolate."
  },
  {
   "property": "C113",
   "status": "proved",
   "theorems": [
    "C113_step",
    "C113_run",
    "C113_dust_run"
   ],
   "note": "C113_dust_run needs no hypothesis on visited states; existence of the run comes from C31."
  },
  {
   "property": "C114",
   "status": "proved",
   "theorems": [
    "C114_criterion",
    "C114_run",
    "C114_many"
   ],
   "note": "Necessary and sufficient under not_single (C31: a single-point body loses an array axis after the first G2P). A state lacking SDF states, laws or affine matrices fails inside the step, not when built."
  },
  {
   "property": "C115",
   "status": "partial",
   "theorems": [
    "C115_recipe_partial",
    "C115_order_refuted"
   ],
   "note": "Proved with the colliders registered after gravity and damping. Refuted otherwise: a collider takes a number but registers no state, so gravity added after it looks up a state that is not there and the first step raises IndexError."
  },
  {
   "property": "C116",
   "status": "proved",
   "theorems": [
    "C116_outline",
    "C116_placed",
    "C116_symmetry"
   ],
   "note": "arctan2 over the reals is defined in SpecStar; n = 1 is excluded (the outline degenerates to a segment)."
  },
  {
   "property": "C117",
   "status": "partial",
   "theorems": [
    "C117_unique",
    "C117_principal",
    "C117_frames",
    "C117_volume_partial",
    "C117_run_partial",
    "C117_inverted_refuted"
   ],
   "note": "jnp.linalg.svd is an argument: the theorems hold for every function returning some decomposition. Findings: an inverted point reports the strain of its mirror image, and stretches below 1e-12 are reported as 1e-12, so the volumetric strain is not the volume ratio there."
  },
  {
   "property": "C118",
   "status": "partial",
   "theorems": [
    "C118_values_partial",
    "C118_missing_refuted",
    "C118_rest_refuted"
   ],
   "note": "Findings: KE_density_stack and q_p_stack are silently None; stored_shear_strain_stack raises ValueError without store_F; shear strains and rates never fall below 1e-8, so a body at rest reports 1e-8."
  },
  {
   "property": "C119",
   "status": "partial",
   "theorems": [
    "C119_affine_partial",
    "C119_scale_refuted",
    "C119_wall_partial",
    "C119_wall_refuted",
    "C119_fails"
   ],
   "note": "Exact on affine masses up to the factor cell size. Findings: the spacing is not passed to jnp.gradient although the comment divides by 2dx, and the estimate is not normalised, so a rigid collision multiplies the approach velocity by 1 - |n|^2 instead of removing it. The hook calling it cannot run (C57)."
  },
  {
   "property": "C120",
   "status": "partial",
   "theorems": [
    "C120_invariants",
    "C120_level_partial",
    "C120_slope_refuted",
    "C120_plane_refuted",
    "C120_ratio_refuted"
   ],
   "note": "Findings: on a slope the reconstructed stress has no shear traction; the vertical is the third axis, so in 2-D the vertical stress is only k0 times the weight above; a ratio above 1 is lost because q has no sign. Level 3-D beds with k0 <= 1 start in equilibrium."
  },
  {
   "property": "C121",
   "status": "proved",
   "theorems": [
    "C121_critical_state",
    "C121_compression"
   ],
   "note": "Proved over the reals with positive pressures."
  },
  {
   "property": "C122",
   "status": "partial",
   "theorems": [
    "C122_inertial_partial",
    "C122_order",
    "C122_floor_refuted"
   ],
   "note": "Finding: below the pressure 1e-6 the helper reports a smaller number than the law uses."
  },
  {
   "property": "C123",
   "status": "partial",
   "theorems": [
    "C123_first_order_partial",
    "C123_sign_refuted",
    "C123_rotation_refuted",
    "C123_parts"
   ],
   "note": "Findings: the small strain is positive in extension while every other strain is positive in compression; a rotation by t gives the strain cos t - 1."
  },
  {
   "property": "C124",
   "status": "partial",
   "theorems": [
    "C124_mu_i_partial",
    "C124_mu_i_keeps",
    "C124_shear_refuted",
    "C124_linear_elastic",
    "C124_reference_refuted"
   ],
   "note": "The mu(I) part was added because a seeded error (reference density from the current instead of the initial volume) was not caught. Findings: the first mu(I) update drops the initial shear stress; LinearElasticLaw.create_state ignores stress_ref_stack when densities are given."
  },
  {
   "property": "C125",
   "status": "partial",
   "theorems": [
    "C125_step",
    "C125_volume_space",
    "C125_volume_plane",
    "C125_store_lost_refuted",
    "C125_store_refuted"
   ],
   "note": "Volumes: proved over runs in 2-D and 3-D. Finding: a resetting law overwrites F_store_stack with the current, already reset, F (constitutive_law.py 54-59) instead of accumulating, so shear of earlier steps is lost from the stored gradient."
  },
  {
   "property": "C126",
   "status": "partial",
   "theorems": [
    "C126_balance",
    "C126_affine",
    "C126_linear",
    "C126_spin_refuted"
   ],
   "note": "C126_balance holds for every field; it is conservation for affine nodal velocities with the quadratic or cubic kernel, and for any field with the linear kernel when second moments are taken at the old positions. Finding: the stored matrix is -sum v (x) grad w, while p2g pairs it with the lever arm, which preserves angular momentum only in those cases: a lone point at rest under symmetric shear stress comes out with spin 1/110, against the docstring of usl_asflip.py."
  },
  {
   "property": "C127",
   "status": "partial",
   "theorems": [
    "C127_couple",
    "C127_couple_accepts",
    "C127_gravity",
    "C127_damping",
    "C127_collider",
    "C127_contact",
    "C127_solver",
    "C127_keyword",
    "C127_build",
    "C127_friction_refuted"
   ],
   "note": "Proved for couple (exactly when accepted and what is then registered), gravity, damping, contact, set_solver and build. Finding: add_sdf_collider drops its friction argument, so a collider asked to be frictionless has friction 1 (C127_friction_refuted)."
  },
  {
   "property": "C128",
   "status": "partial",
   "theorems": [
    "C128_files",
    "C128_names",
    "C128_property_refuted",
    "C128_colours_partial",
    "C128_colours_refuted",
    "C128_domain_partial",
    "C128_domain_refuted"
   ],
   "note": "Files, positions, radii and rows proved for every history. Findings: property_name=None raises UnboundLocalError (vtk_io.py 70-82); fields that spread over less than 1e-6 get a single colour; both visualisers draw the domain one cell too large at its far sides."
  },
  {
   "property": "C129",
   "status": "partial",
   "theorems": [
    "C129_lattice",
    "C129_resolution",
    "C129_seen_partial",
    "C129_domain_partial",
    "C129_seen_refuted",
    "C129_disc_refuted",
    "C129_lines",
    "C129_triangles",
    "C129_static_refuted",
    "C129_normals_refuted"
   ],
   "note": "Lattice, resolution, coverage, line and triangle connectivity proved. Findings: the sampled box is 1.05 end - 0.95 start long, so where start + end < 0 the far part of the domain is never sampled and obstacles there are not drawn (a whole disc is missed at every resolution); VTK log_sdf without a step raises TypeError, its 'static' suffix is unused; Rerun exchanges two components of the normals but not of the vertices. Assumes marching_cubes returns vertices and normals in the same index order."
  },
  {
   "property": "C130",
   "status": "partial",
   "theorems": [
    "C130_axis",
    "C130_unit",
    "C130_sum",
    "C130_quadratic_refuted",
    "C130_ieee_refuted"
   ],
   "note": "Proved for the linear kernel in every binary format (each operation rounded to nearest even, no overflow, no fused multiply-add). Finding: the quadratic and cubic kernels give negative weights of about one unit in the last place just inside the edge of their support (C130_quadratic_refuted for every precision, C130_ieee_refuted for IEEE binary32 and binary64)."
  },
  {
   "property": "C131",
   "status": "partial",
   "theorems": [
    "C131_accuracy",
    "C131_power_of_two",
    "C131_bound",
    "C131_stall",
    "C131_advance_refuted"
   ],
   "note": "Accuracy, the exact law for power-of-two time steps and the bound on reachable times are proved in every binary format. Finding: the accumulated time stops growing after at most 2^(p+1) steps, in single precision at 128 s for a time step of 2^-17 s; steps go on and nothing is reported (C131_advance_refuted)."
  },
  {
   "property": "C132",
   "status": "partial",
   "theorems": [
    "C132_total",
    "C132_exact_refuted"
   ],
   "note": "The bound is proved for grids whose couplings all use the linear kernel, with operations rounded one by one in table order. Exact conservation fails in every format (C132_exact_refuted: underflow can lose all of it)."
  },
  {
   "property": "C133",
   "status": "partial",
   "theorems": [
    "C133_friction",
    "C133_surface",
    "C133_form_refuted",
    "C133_lines",
    "C133_flow",
    "C133_state",
    "C133_state_refuted",
    "C133_constants"
   ],
   "note": "Proved for the residual form used by the update. Findings: get_unified_iys, with 1e-12 in its denominator, has another zero set (C133_form_refuted); create_state_from_ocr ignores q_stack, every point starts without shear (C133_state_refuted); the flow direction is normal to the static surface, not to the inertial one."
  },
  {
   "property": "C134",
   "status": "partial",
   "theorems": [
    "C134_plastic",
    "C134_line",
    "C134_elastic",
    "C134_history",
    "C134_flow",
    "C134_strain",
    "C134_return_refuted",
    "C134_reset_refuted",
    "C134_floor_refuted",
    "C134_rest",
    "C134_body"
   ],
   "note": "The volume line, the bounds and the meaning of the residuals hold whatever the Jacobian and whether or not the iteration converges. Findings: log p_s moves by at most 0.8 in a step, so a step compressing by more than 0.8 lambda ends outside every inertial yield surface (C134_return_refuted); an elastic step discards the inertial number and with it specific volume (C134_reset_refuted); a plastic step from a pressure below 1 starts from 1 (C134_floor_refuted)."
  },
  {
   "property": "C135",
   "status": "partial",
   "theorems": [
    "C135_spectrum",
    "C135_rms",
    "C135_rms_refuted",
    "C135_relief",
    "C135_flat",
    "C135_profile",
    "C135_distance",
    "C135_distance_refuted",
    "C135_normal",
    "C135_step_refuted",
    "C135_friction",
    "C135_rest",
    "C135_motion_refuted",
    "C135_aabb",
    "C135_aabb_refuted"
   ],
   "note": "Proved: spectrum, mean square, relief, flat part, profile, normal, friction, height as a two-sided bound of the distance. Findings: with one wavelength and several harmonics the floor is rougher than asked (C135_rms_refuted); the value is height above the floor, larger than the distance beside a bump (C135_distance_refuted); the floor has a step at x_max, where the waves start again (C135_step_refuted); a floor given a velocity reports it to the collider but never moves (C135_motion_refuted); the box ends at the lowest point of the surface and leaves the solid below out (C135_aabb_refuted)."
  },
  {
   "property": "C136",
   "status": "partial",
   "theorems": [
    "C136_trajectory",
    "C136_run",
    "C136_tilt_refuted",
    "C136_frames_refuted",
    "C136_default_refuted",
    "C136_times",
    "C136_gravity"
   ],
   "note": "Proved for both entry points what each state is. Findings: run ignores the tilt of its parameters and keeps the gravity of the template (C136_tilt_refuted); run logs after steps 1, 1 + n, 1 + 2n and a trajectory after n, 2n, so they never show the same step (C136_frames_refuted); params=None, the default, always raises (C136_default_refuted); a trajectory drops the steps after its last whole output interval."
  },
  {
   "property": "C137",
   "status": "partial",
   "theorems": [
    "C137_ranges",
    "C137_material",
    "C137_density_refuted",
    "C137_curve",
    "C137_values",
    "C137_interpolation",
    "C137_loss",
    "C137_reported_partial",
    "C137_reported_refuted"
   ],
   "note": "Proved for every optimizer that returns updates of the population's shape; adam and the gradient are parameters. Findings: the parameters reported are those after the last update, picked by the losses before it, so the reported loss is not theirs and another chain may be better (C137_reported_refuted; C137_reported_partial says what holds); the range of N admits specific volumes below one, so samples with N <= 1 start denser than their grains (C137_density_refuted)."
  },
  {
   "property": "C138",
   "status": "partial",
   "theorems": [
    "C138_samples",
    "C138_complete",
    "C138_units",
    "C138_undrained",
    "C138_axial_refuted",
    "C138_modes",
    "C138_drained_refuted"
   ],
   "note": "Proved: samples, completeness, units, undrained strains. Findings: samples called drained are run at constant mean stress, so the lateral stress departs from the confinement (C138_drained_refuted); the stored axial strain lags the stored strain tensor at every step but the last (C138_axial_refuted)."
  },
  {
   "property": "C139",
   "status": "partial",
   "theorems": [
    "C139_return",
    "C139_jacobian",
    "C139_newton",
    "C139_units_refuted",
    "C139_strain_refuted"
   ],
   "note": "Proved: what the residuals of the last iterate say about the returned stress, that Newton's matrix is the derivative away from the corners of the bulk modulus, and what one step does. Nothing is claimed about how small the residuals are after ten steps. Findings: the logarithm of the preconsolidation pressure is cut at zero, so with a preconsolidation pressure below one unit of stress every yielding step hardens the clay to one and drops the pressure (C139_units_refuted); elastic and yielding steps store different elastic strains for the same pressure (C139_strain_refuted)."
  },
  {
   "property": "C140",
   "status": "partial",
   "theorems": [
    "C140_normal",
    "C140_domain",
    "C140_refuted",
    "C140_tie"
   ],
   "note": "Proved for every shape and for unions, in both dimensions, at every point where no two faces are equally near and no coordinate that enters by its absolute value is zero. Finding: on the middle plane of a plate the normal is the zero vector although the point is inside, because the slope of the absolute value at zero is taken as zero (C140_refuted)."
  },
  {
   "property": "C141",
   "status": "proved",
   "theorems": [
    "C141_closest",
    "C141_ghost",
    "C141_midpoint",
    "C141_mask",
    "C141_mask_bounds",
    "C141_inert",
    "C141_ghost_of"
   ],
   "note": "C141_inert is a finding stated as a theorem: because ones are stored instead of the computed mask (C28), a run with obstacles and no collider is, over the reals, the run without them; obstacles neither block the transfer nor give a ghost velocity. C141_mask gives what the computed mask would be: a node counts as inside up to one cell away from the obstacle. In 2-D the embedded origin has z = 0."
  },
  {
   "property": "C142",
   "status": "partial",
   "theorems": [
    "C142_number",
    "C142_order",
    "C142_again",
    "C142_points",
    "C142_whole_refuted",
    "C142_volume_refuted",
    "C142_chunks"
   ],
   "note": "Findings: when the whole state is saved the stress is not divided by 1000, so every stress from 65.52 kPa on is stored as infinity (C142_whole_refuted); volumes are stored in cubic metres, so points of a 5 mm cell with eight points are stored with volume zero, the smallest half being 2^-24 (C142_volume_refuted). The store itself (zarr, compressor) and the JSON file are not modelled."
  },
  {
   "property": "C143",
   "status": "partial",
   "theorems": [
    "C143_steady",
    "C143_rate",
    "C143_exists",
    "C143_reported",
    "C143_trial",
    "C143_slow",
    "C143_cam_clay",
    "C143_lines",
    "C143_shift_refuted"
   ],
   "note": "Steady states and the rate-independent limit are those README.md announces (C143_steady, C143_exists, C143_slow, C143_cam_clay); the limit is the library's Cam-Clay residual with p_c = 2 p_s for equal moduli, the law's own shear modulus being taken at the mean of old and trial pressure. Finding: get_ps_I, which draws the yield surfaces of the theory figures, shifts p_s by exp(I/I_v), while the hardening rule without plastic volume change shifts it by exp(I/(I_v (lambda - kappa))) (C143_shift_refuted). The convergence of the Newton iteration to a root is a hypothesis here."
  },
  {
   "property": "C144",
   "status": "proved",
   "theorems": [
    "C144_step",
    "C144_run",
    "C144_obstacles"
   ],
   "note": "Proved at the reals as an equation between results, so errors agree as well. Library obstacles are moved by their centre, the domain box by its corners (C144_obstacles; see C68_refuted for the box moved by its centre). In floating point the equation holds only up to rounding and is not claimed."
  },
  {
   "property": "C145",
   "status": "proved",
   "theorems": [
    "C145_step",
    "C145_run",
    "C145_cells",
    "C145_padding"
   ],
   "note": "Equality of results at the reals. The hypothesis [fits] asks every coupled body, skipped couplings included, to have its stencils within the smaller grid; what happens outside is C09 and C146. C145_cells combines this with C144."
  },
  {
   "property": "C146",
   "status": "partial",
   "theorems": [
    "C146_step",
    "C146_dynamic",
    "C146_run",
    "C146_extent_refuted"
   ],
   "note": "FINDING: nothing reports that a point has left the grid; it freezes where it is (C146_run), so a domain that is too small changes the result without an error (C146_extent_refuted, against C145_step). Points with part of their stencil outside are not described here beyond C09."
  },
  {
   "property": "C147",
   "status": "partial",
   "theorems": [
    "C147_points",
    "C147_distinct",
    "C147_congruent",
    "C147_symmetric",
    "C147_centre",
    "C147_area",
    "C147_default_refuted",
    "C147_start",
    "C147_goes_on",
    "C147_momentum"
   ],
   "note": "FINDING: the spacing is cell/(ppc/2) but the area given to a point is cell^2/ppc; they agree only for ppc = 4 (C147_area), and with the default ppc = 2 of create_circle the body has half the density asked for (C147_default_refuted). The momentum theorem assumes, for each step taken, interior points and touched nodes above the mass cutoff (C147_case shows both for the first step of the script). The rounding of jnp.arange and the viewer are not modelled."
  },
  {
   "property": "C148",
   "status": "partial",
   "theorems": [
    "C148_points",
    "C148_count",
    "C148_mass_refuted",
    "C148_friction",
    "C148_compression_refuted",
    "C148_start",
    "C148_goes_on",
    "C148_clear",
    "C148_run",
    "C148_times_refuted",
    "C148_steps_refuted"
   ],
   "note": "FINDING: the spacing is cell/ppc, so a cell holds ppc^2 points, but each is given the area cell^2/ppc: the column weighs ppc times too much (C148_mass_refuted; twice with the numbers of the script). C148_compression_refuted: on the Mohr-Coulomb cone in triaxial compression the law is already beyond its own. C148_friction assumes a deviatoric stress above the floor 1e-12 of the code. C148_case shows the numbers of the script and that the stress states assumed are reached. C148_steps_refuted: int(2.0 / 1e-5) is 199999 in binary64, one step short of the total time. C148_times_refuted: the callback gets the states one step after the multiples of the output time. The rounding of jnp.arange and the viewer are not modelled; a positive output step is assumed."
  },
  {
   "property": "C149",
   "status": "partial",
   "theorems": [
    "C149_ncl",
    "C149_csl",
    "C149_critical",
    "C149_swelling_refuted",
    "C149_start"
   ],
   "note": "FINDING: the swelling line of the plot is evaluated at 10 Pa and at p_c but drawn at 1 and 10 kPa, so it agrees with the swelling line only at its right end and is three times as steep (C149_swelling_refuted). The volume in C149_start is computed from mass over volume without the guard 1e-16 of the property density_stack. The run itself is TriaxialTest (C76, C77, C94-C96); matplotlib is represented by straight segments on logarithmic axes."
  }
 ]
}