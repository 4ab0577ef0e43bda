# Formal model of HydraxMPM: design

Target: Rocq/Coq 8.16.1, sources in `rocq/theories` (logical name `Verif`).
The Python source in `/repo` was read as text only and never executed.

## 1. Shape of the model

* **Scalars.** The Python code computes with IEEE floats (Python `float` = binary64, JAX default binary32).
  The model is written once, generically over a class `Num T` (field operations, comparisons, floor,
  truncation, integer embedding) and `NumT T` (adds sqrt, exp, ln, pow, cos, sin, cbrt).
  Structural theorems are proved for every instance with no algebraic law assumed, so they hold of floats.
  Numeric theorems are proved at the instance `R` (exact real arithmetic).
  A few witnesses are evaluated at the `Q` instance or at the stdlib `SpecFloat` binary64 instance.
  Rounding is modelled by the instances `Num_fl p e` and `NumT_fl p e` (`NumFl`): every operation of the model is followed by one
  rounding to nearest even in the binary format of precision `p` and smallest exponent `e` (Flocq's `FLT`). Overflow and fused
  multiply-add are left out there, scatters add in table order, and elementary functions are taken as correctly rounded. C130-C132 use it.
  Rounding error, NaN and infinity are otherwise *not* modelled. Division by zero in `R` is excluded by hypotheses.
* **Arrays.** A stack over particles is a list of particle records, a stack over nodes a list of node records.
  That all stacks of a state have the same length is enforced in the code by the jaxtyping/typeguard import hook
  (`hydraxmpm/__init__.py`), and is built into the record-per-particle representation.
  A 2-D vector is a `vec3` with third component 0; the code's `[:, :dim]` slices are explicit truncations.
* **Scatter.** `.at[ids].add(vals)` is a fold of single additions in index order. Out-of-range ids are dropped
  (JAX scatter semantics). Order irrelevance is a theorem at `R`.
* **Exceptions.** Python exceptions are values of an error type (`IndexError`, `AttributeError`, `TypeError`, ...).
* **Autodiff.** `jax.grad` is not executed; where needed the derivative is written out by hand and proved to be the
  derivative (Coquelicot `is_derive`), or left as a function parameter of the record (SDF normals).
* **Objects.** A grid, a body, a law, a force and an SDF are records or constructors; the world is the tuple of their
  lists, as in `SimState`. Python object identity matters nowhere in the modelled code. A simulation object's string keys
  are kept as strings (`ModelBuilder`), the interaction dictionary is an association list.
* **Control flow.** `jax.lax.scan`, `while_loop`, `vmap` and Python loops are folds, fuelled iterations with the code's own
  iteration limit, and maps. `jit` is the identity.

### What is modelled

| Coq file | code | remarks |
|----------|------|---------|
| `ModelGrid` | `grid/grid.py` | dimensions, numbering, CFL, node count (int32 overflow and float rounding through binary64) |
| `ModelShape`, `ModelState` | `shapefunctions/*.py`; `common/simstate.py`, `material_points/material_points.py` and the state records of the other modules | three kernels, stencil, padding, hash; `res` type of results |
| `ModelSolver` | `solvers/usl.py`, `solvers/usl_asflip.py`, `solvers/solver.py`, `solvers/coupling.py` | connectivity, P2G, grid integration, forces in order, G2P, laws, SDF update, shear reset, dynamic alpha |
| `ModelLaws` | `constitutive_laws/*.py` | linear elasticity, Newtonian fluid, mu(I), Drucker-Prager, modified Cam-Clay; state constructors; `get_dt_crit` |
| `ModelForces` | `forces/*.py` | gravity, damping, SDF collider, grid contact; particle and grid hooks |
| `ModelMath` | `utils/math_helpers.py` | invariants, volumetric/deviatoric parts, rotations, quaternions, phases, safe norms |
| `ModelSDF` | `sdf/sdfobject.py`, `sdf/sdfcollection.py` | all shapes but `StarSDF`; normals, surface velocity, rigid motion |
| `ModelStar` | `sdf/sdfcollection.py: StarSDF` | signed distance (its gradient is not modelled); `arctan2` is an argument |
| `ModelStrain` | `utils/math_helpers.py: get_hencky_strain`, derived properties of `material_points.py` | `jnp.linalg.svd` is an argument |
| `ModelMassGrad` | `forces/gridcontact.py: _compute_mass_gradient` | `jnp.gradient` with unit spacing |
| `ModelGridSDF` | `sdf/gridsdf.py` | voxel table; the `.npz` file is the record's contents |
| `ModelBuilder` | `common/builder.py` (builder calls as a state machine) | every public call, key and index bookkeeping, `set_solver` selection |
| `ModelGen` | `utils/generate_body.py` | sampling lattices and filters; a PRNG draw is an arbitrary list argument |
| `ModelIO` | `common/sim_io.py` | the file system is a finite map from names to contents |
| `ModelVis` | `common/vtk_io.py`, `common/rerun.py` | what is handed to PyVista and Rerun; contour extraction is an argument |
| `ModelUEPI` | `projects/unified_elasto_plastic_inertial_mcc/UEPI_MCC.py`, `sip_setup.py` 38-40, `result_trx.py` 232-247 | whole file UEPI_MCC.py, `GAMMA` and the reported inertial number; `jax.jacfwd` is replaced by an arbitrary function |
| `ModelCollapse` | `projects/lorentz_collapse/floor.py`, `collapse_setup.py` 12-22, 202-238, 389-437 | whole floor file; `build_template` and the viewers are not modelled; the bumps and frictions of the floor state live in its logic |
| `ModelCalib` | `projects/mcc_trx_inverse/mcc_trx_inverse.py`, `mcc_trx_data_gen.py` | reading and writing files and plotting are not modelled; the gradient, optax.adam, scipy's Latin hypercube and jnp.linalg.svd are parameters; jnp.interp takes its abscissas as sorted |
| `ModelTwo` | `projects/two_sphere_impact/two_sphere_impact.py` 20-100 | the viewer, jit and the fori_loop callback are not modelled; jnp.arange in exact arithmetic |
| `ModelColumn` | `projects/collapse/collapse.py` 13-140 | the viewer is not modelled; jnp.arange in exact arithmetic; the number of steps also in binary64 |
| `ModelTrx` | `projects/mcc_trx/mcc.py` 22-63, 106-145 | the run is `ModelElement`; the axes limits and the other panels of the figure are not modelled |
| `ModelSave` | `projects/lorentz_collapse/save_data.py` | zarr, the compressor and the JSON file of the parameters are not modelled; a key is the path of field names and indices, not its spelling; entries are reals rounded with Flocq |
| `ModelElement` | `element_tests/driver.py`, `element_tests/triaxial_test.py` | Newton iteration with fixed count, snapshots, strides |

Each definition cites its file and lines and says where it simplifies.

### What is not modelled

* Rounding, NaN, infinities, int32 overflow, except in the theorems that name a binary format or int32.
* JIT compilation, device placement, donation of buffers; `equinox`/`jaxtyping` run-time checks other than the ones cited.
* PyVista, Rerun and skimage themselves, colour maps and blueprints, STL import and voxelisation, reading `.npz`, pickling and array (de)serialisation, the rest of `projects/`.
* The gradient of `StarSDF`, the commented-out `sdf/sdfmorph.py`.
* `expm` and `jax.grad` of user-supplied functions: they are parameters of the records (`SDFLogic`), and the theorems that
  need it assume of the parameter what they say. For the library's shapes the gradient is written out and proved.
* Negative Python indices (`c_idx = -1` and the like) other than where a theorem is about them.
* The random number generator: draws are universally quantified.
* Hooks and callbacks of users of the library; the body of the `GridContact` hook beyond the node-wise law of C58.

## 2. Plan per property

`model` says what is modelled; `proof` how it is (to be) proved. `refuted` = the full statement is false of the
faithful model; the refutation theorem carries a witness and a `_partial` theorem states what does hold.

| id | model | proof |
|----|-------|-------|
| C01-C05 | kernels and `compute` | per-axis polynomial identities on each spline piece, tensor-product lemma over the stencil; C05 linear kernel refuted at nodes |
| C06 | kernels | Coquelicot derivatives per piece and at knots |
| C07-C10,C12 | integer index functions | induction over axes, lia |
| C11 | `GridDomain.create` + `compute` | floor arithmetic over R; binary64 counterexample through SpecFloat |
| C13,C14 | scatter/gather | additive functional over fold; C14 refuted (AttributeError) |
| C15-C19,C26,C32 | P2G, grid integration, G2P | sum-exchange lemmas; C18, C26(USL) refuted |
| C20,C22-C25,C31 | whole step | invariants by induction over steps; C31 refuted for one particle |
| C21,C27-C30 | G2P, reset, CPIC mask, SDF update, interaction dictionary | refuted with witnesses, true variants as `_partial` |
| C33 | `compute` | ring identities + floor shift |
| C34-C38 | USLAFLIP | as for USL; C35 (position), C36 (parameters), C37, C38 refuted |
| C39,C40 | material point creation | direct; C39 refuted (3-D, keyword) |
| C41,C42 | linear elasticity | induction over increments, field |
| C43,C44 | Newtonian fluid | sign refuted |
| C45 | mu(I) | factor 2 refuted, bound proved |
| C46-C48 | Drucker-Prager | return-map algebra; dilatant case refuted; plastic strain monotonicity refuted |
| C49,C50 | modified Cam-Clay | algebra with exp/ln/pow |
| C51 | shear removal | 2-D refuted |
| C52-C58 | forces | node-wise algebra; C53, C56, C57 refuted |
| C59-C63 | builder as a state machine | induction over call sequences; C59,C60,C62,C63 refuted |
| C64-C70 | SDF library | real analysis (norm inequalities); C65, C70 refuted |
| C71-C73 | particle seeding | list filter; C72, C73 refuted |
| C74,C75 | file system as a finite map, decimal printing | induction over histories, injectivity of zero-padded decimal |
| C76-C78 | triaxial driver | induction over steps; C77, C78 refuted |
| C79-C83 | math helpers | algebra; C79, C83 refuted |
| C84,C85 | `get_dt_crit`, grid node count | Drucker-Prager refuted (AttributeError); int32 counterexample |
| C86-C89 | whole step with forces, virial | sum exchange over the step; C88 refuted |
| C90-C93 | point clouds, builder, recorder | induction; refuted where the documentation promises more |
| C94-C96 | triaxial driver | induction over steps, contraction of the Newton iteration |
| C97,C98 | whole step, two runs related | induction over steps (`DeformProofs`), simulation relation (`GalileanProofs`) |
| C99,C100 | whole step | the laws fold writes each coupling once (`LawApplyProofs`); refuted for two grids and near walls |
| C101,C102 | voxel SDF | piecewise linear interpolation in one variable, tensor product (`GridSDFProofs`) |
| C103 | contact energy | algebra on one node pair (`P_Contact`) |
| C104–C106 | Cam-Clay lines, rest, initial states | induction over the history, closed forms of the trial state (`P_Laws3`) |
| C107–C110 | isotropy, spin, stored strain, dissipation | tensor identities under orthogonal change of axes (`TurnProofs`), C26 gradients |
| C111–C113 | angular momentum, velocity bounds, kinetic energy | second moments of the kernels, convexity (weighted means and squares), induction over steps (`EnergyProofs`, `P_Energy`) |
| C114, C115 | when a step succeeds; scripts whose simulation runs | phase-by-phase totality of the folds with shape invariants, and its converse; invariant of the builder by induction over the script (`SpecReady`, `ReadyProofs`, `BuildProofs`, `P_Ready`) |
| C116 | star distances | polar coordinates, folding by the reflection group of the star brings points closer, segment projection, sign along rays (`ModelStar`, `SpecStar`, `StarProofs`, `P_Star`) |
| C117, C118 | logarithmic strain, reported quantities | uniqueness of isotropic tensor functions, traces and determinants; evaluation per point (`ModelStrain`, `SpecStrain`, `StrainProofs`, `P_Strain`) |
| C119 | contact normals from mass gradients | flat numbering inverse, differences of affine sequences (`ModelMassGrad`, `P_MassGrad`) |
| C120 | initial stress under gravity | invariants of an explicit bed stress, its depth derivative (`P_Litho`) |
| C121-C123 | critical states, inertial number, small strains | logarithms of the volume lines; monotone quotients; bounds on ln (`P_Lines`) |
| C124 | created states | induction over the points (`P_Create`); C101 placement in `P_Placed` |
| C125 | volume under resets | induction over runs of the determinant of F before reset (`VolumeProofs`, `P_Volume`) |
| C126 | spin through the AFLIP gather | first moments of the gathered velocities against the stored matrices (`SpinProofs`); closed form of the nodal velocities around one point (`LoneProofs`); `P_Spin` |
| C127 | builder calls: names, defaults, keywords | inversion of each call; keyword fold by reverse induction; `P_Calls` |
| C128 | `ModelVis` on the file system of `ModelIO` | no file is in the way of a directory (invariant over calls), names are injective, radii through powers; `P_VTK` |
| C129 | sampling lattice, contours, triangles of `ModelVis` | nearest sample per axis by floor, reverse bound for negative coordinates, cell arrays by induction over contours; `P_Surface` |
| C130 | kernels and `compute` at the rounded instance `Num_fl p e` | exactness of floor subtraction (Sterbenz), per-product error bounds; negative witness for every precision; `P_Float` |
| C131 | `solver_steps` at `NumT_fl p e` | induction over steps, absorption by a large summand; `P_FloatTime` |
| C132 | `prepare`, `p2g` at `NumT_fl p e` | masses as one fold of additions, error of a rounded sum per node, sums over points; `P_FloatMass` |
| C133 | curve helpers, constructor and initial states of `ModelUEPI` | algebra over R, derivatives and limits (Coquelicot); `P_UEPI` |
| C134 | trial, residuals, Newton steps, update of `ModelUEPI`; the Jacobian is an arbitrary function | bounds of a Newton step by induction over the iterations, logarithms of the volume line, induction over histories; `P_UEPI` |
| C135 | spectrum, height, slope, friction, state and box of `ModelCollapse`; `floor_logic` is an `SDFLogic`, so the collider theorems apply to it | antiderivatives of products of sines for the mean square, Cauchy-Schwarz for relief, Lipschitz bounds for distance, Coquelicot derivatives for the normal; `FloorProofs`, `P_Floor` |
| C136 | `collapse_run`, `collapse_trajectory` of `ModelCollapse` | induction over the loops, `steps_kept`, `Ztrunc` bounds; `P_CollapseRun` |
| C137 | `kernel`, `interp`, `loss`, `calibrate`, `best_params` of `ModelCalib` | invariant over rounds, `argmin_spec`, monotone strain list, sums of squares; `CalibProofs`, `P_Calib` |
| C138 | `scale_sample`, `sequences`, `mode_procedure` of `ModelCalib` | affine bijection, `run_stretched` (C76) and `C117_principal` for the strain tensors, residual of the Newton equation; `P_Calib` |
| C139 | `mcc_residual`, `mcc_jacobian`, `mcc_newton_step`, `mcc_plastic` of `ModelLaws` | residuals expressed by the returned stress (`mcc_plastic_eq`), Coquelicot derivatives with one-sided cuts, 2x2 algebra of the guarded inverse; `P_Return` |
| C140 | `dist_local`, `grad_local`, `dfaces`, `share`, `domain_normal`, `get_normal` of `ModelSDF` | derivative along any line by induction on the shape, continuity of the other distances of a union, transposed rotations; `P_Normals` |
| C141 | `closest`, `ghost`, `ghost_of`, `geom_at`, `midpoint`, `compatible`, `blend`, whole step of `ModelSolver` | closed forms; simulation between the solver and the solver without obstacles, induction over steps; `P_Obstacle` |
| C142 | `half`, `leaf_to_zarr`, `to_kpa`, `save_compressed_sim`, `chunks` of `ModelSave` | Flocq rounding to nearest in FLT(-24, 11), round-trip over all leaves; `P_Save` |
| C143 | trial, residuals and update of `ModelUEPI` at a root; `sip_gamma`, `trx_I`, `get_iss_v`, `get_ps_I` | stationarity solved for trace, pressure ratio and friction; a steady state built explicitly; limit in the time step (Coquelicot); `P_Steady` |
| C144 | `solver_step` with shifted grids, points and obstacles | every stage commutes with the shift (equations between results); induction over steps; `P_Shift` |
| C145 | `solver_step` on two grids of one lattice | injection of the nodes of the small grid into the large one; every nodal array of the small run is a part of the one of the large run (`emb`), relational reading of each stage; `P_Enlarge` |
| C146 | `solver_step` for points beyond the grid | all rows of the point are zero, so its gathered sums vanish; induction over steps; witness against the extent; `P_Gone` |
| C147 | `ModelTwo`: `create_circle`, the builder script, the run | membership by the lattice index, permutation by the reflection, C86 without forces, induction over steps; `P_Two` |
| C148 | `ModelColumn`: the points, `compute_mu`, the builder script, the run | membership by the lattice index, counting, algebra on the yield function, `ready_run` of C114; `P_Column` |
| C149 | `ModelTrx`: the initial state and the reference curves of the plot | logarithms of the curves are affine in the logarithm of the pressure, C49 for the state; `P_Trx` |

Proof files: `ShapeProofs*`, `MappingProofs`, `TransferProofs*`, `GatherProofs`, `MomentumProofs`, `StepProofs`, `AffineProofs`,
`StepAffine`, `PlaneProofs`, `HeavyProofs`, `PermProofs`, `ShiftProofs`, `ForceProofs`, `VirialProofs`, `ProgressProofs`,
`SolverFacts`, `SolverMore`, `LawProofs*`, `SDFProofs`, `ElementProofs` and the ones named above. `Spec*` files hold the
specification vocabulary, `P_*` the theorems with their examples.

## 3. Trusted base

* Coq 8.16.1 kernel (and `vm_compute`).
* The axioms reported by `Print Assumptions` under each theorem. Expected: none for structural theorems; the
  stdlib axioms of `Reals` (`ClassicalDedekindReals.sig_forall_dec`, `sig_not_dec`,
  `FunctionalExtensionality.functional_extensionality_dep`, and `Classical_Prop.classic` via Coquelicot) for real ones.
* The reading of the Python source: each definition cites file and lines.

No axiom is declared in the development, no kernel check is switched off, and there are no admitted proofs.
What `Print Assumptions` lists for each theorem (generated by `tools/gen_assumptions.py`):

<!-- assumptions -->
* **Closed under the global context** (86 theorems): C07_indices_in_range, C07_each_pair_once_in_order, C12_numbering_bijective, C14_gather_from_grid_refuted, C22_bookkeeping, C23_rigid_untouched, C25_volume_after_g2p, C27_particle_forces_ignored, C28_masks_are_one, C29_sdf_states_partial, C29_sdf_state_count, C30_own_rows_partial, C30_last_kernel_rows, C31_repeated_steps_partial, C31_single_particle_refuted, C32_renumber_is_permutation, C38_classic_apic_refuted, C39_lengths, C44_create_state_refuted, C51_off, C53_particle_gravity_refuted, C56_friction_refuted, C57_contact_refuted, C59_position, C59_force_state_partial, C59_force_state, C59_solver_state_partial, C59_force_state_refuted, C59_solver_state_refuted, C60_resolved, C60_partial, C60_refuted, C60_law_refuted, C61_rejected, C61_unchanged_partial, C61_spellings, C61_unchanged_refuted, C62_domain_partial, C62_refuted, C62_given, C63_kept_partial, C63_accepted, C63_defaults, C63_refuted, C74_names, C74_recovered, C74_genuine, C75_kept, C75_elsewhere, C75_cleared, C77_snapshots_partial, C77_remainder, C83_dev_strain_stack_refuted, C83_scalar_shear_strain_refuted, C84_drucker_prager_refuted, C84_cam_clay_refuted, C91_refuted, C91_rigid_coupling, C92_array_partial, C92_tuple_refuted, C93_refuted, C93_partial, C114_criterion, C114_run, C114_many, C115_recipe_partial, C115_order_refuted, C127_couple, C127_couple_accepts, C127_gravity, C127_damping, C127_collider, C127_contact, C127_solver, C127_keyword, C127_build, C128_names, C128_property_refuted, C129_static_refuted, C130_ieee_refuted, C136_trajectory, C136_run, C136_tilt_refuted, C136_frames_refuted, C136_default_refuted, C142_chunks.
* **`ClassicalDedekindReals.sig_forall_dec`, `FunctionalExtensionality.functional_extensionality_dep`** (56 theorems): C01_partition_of_unity, C02_weights_in_unit_interval, C02_weights_sum_at_most_one, C03_gradients_sum_to_zero, C04_reproduces_position, C04_weighted_rel_dist_zero, C05_gradients_reproduce_linear_fields_partial, C05_linear_kernel_on_grid_line, C05_gradients_reproduce_linear_fields_refuted, C08_hash_position_distance_agree, C08_slots_distinct, C09_outside_nodes_get_nothing, C10_stencil_complete, C11_padded_grid_contains_stencils, C11_one_layer_not_enough_for_quadratic, C13_scatter_conserves, C13_constant_field_unchanged, C13_averages_stay_in_range, C14_gather_body_partial, C14_gather_body_constant_partial, C32_scatter_order, C32_scatter_order_mass, C33_translation_invariance, C33_whole_cell_shift, C39_plane_partial, C39_defaults, C39_volume_3d_refuted, C39_points_per_cell_refuted, C39_supplied, C40_density, C40_kinetic_energy, C72_in_cell_partial, C79_phi_e_inverse, C79_e_phi_inverse, C79_bulk_density_refuted, C79_phi_from_L, C80_split, C80_triaxial_inverse, C81_split, C81_jaumann, C81_unchanged, C81_size, C82_inv3, C82_inv2, C82_clip, C85_node_count_exact_partial, C85_node_count_binary64_refuted, C97_store_starts, C111_second_moment, C119_affine_partial, C119_scale_refuted, C119_fails, C123_parts, C145_padding, C147_area, C148_steps_refuted.
* **`ClassicalDedekindReals.sig_forall_dec`, `ClassicalDedekindReals.sig_not_dec`, `FunctionalExtensionality.functional_extensionality_dep`** (2 theorems): C45_coefficient, C123_rotation_refuted.
* **`ClassicalDedekindReals.sig_forall_dec`, `ClassicalDedekindReals.sig_not_dec`, `Classical_Prop.classic`, `FunctionalExtensionality.functional_extensionality_dep`** (393 theorems): C06_gradient_is_derivative, C06_smooth_kernels_differentiable, C15_p2g_mass, C16_p2g_momentum, C17_internal_forces_balance, C18_last_body_force_partial, C18_single_body_force_partial, C18_superposition_refuted, C19_momentum_impulse, C20_uniform_motion, C21_usl_alpha_partial, C21_aflip_alpha_partial, C21_alpha_documented_refuted, C22_time_over_reals, C24_plane_strain_partial, C24_out_of_plane_zero_partial, C24_reset_zeroes_F22_refuted, C24_plane_strain_refuted, C25_volume_over_steps, C26_aflip_gradient, C26_usl_gradient_partial, C26_usl_gradient_refuted, C27_particle_forces_act_refuted, C28_computed_mask_range, C28_wall_blocks_refuted, C29_sdf_subset_refuted, C30_own_shape_refuted, C32_p2g_any_row_order, C32_p2g_usl_renumber, C32_p2g_aflip_renumber, C32_g2p_usl_renumber, C32_g2p_aflip_renumber, C34_p2g_affine, C34_step_affine, C34_stored_affine, C35_speed_limit_partial, C35_displacement_refuted, C36_dynamic_alpha_range, C36_default_thresholds_partial, C36_thresholds_refuted, C37_affine_ownership_partial, C37_affine_ownership_refuted, C41_increment, C41_linear, C41_path_independent, C41_closed_path, C41_isotropic, C42_relations, C42_positive, C42_stored, C43_sign_refuted, C43_magnitude_partial, C44_inverse, C44_create_then_update, C45_stress_partial, C45_friction_refuted, C45_disconnected, C45_initial_pressure, C46_nondilatant_partial, C46_dilatant_refuted, C47_monotone_partial, C47_cohesionless, C47_apex_refuted, C48_drucker_prager, C48_mu_i, C48_cam_clay, C49_state, C50_elastic, C50_trial_yield, C50_floor_refuted, C51_space, C51_plane_refuted, C52_grid_gravity, C52_gravity_deforms_nothing, C52_free_fall, C54_component, C54_grid_damping, C55_contact, C55_short_normal, C55_node, C55_collider, C55_light_node_refuted, C56_gap_refuted, C58_node_contact, C64_sphere, C64_sphere_lipschitz, C64_plane, C64_plane_lipschitz, C65_box, C65_capsule, C65_cylinder, C65_torus, C65_sign_refuted, C66_union, C66_friction, C67_domain, C67_offset_refuted, C68_distance, C68_friction, C68_normal, C68_refuted, C69_translation, C69_quaternion_length, C69_quaternion_motion, C69_unit_refuted, C69_domain_refuted, C70_pipe, C70_side_view, C70_height_refuted, C71_selected, C71_state, C71_sphere, C71_box, C72_candidates, C72_cells, C72_in_cell_refuted, C72_coincident_refuted, C72_count, C73_regular_partial, C73_random_partial, C73_other_refuted, C76_undrained_isochoric, C77_snapshots_refuted, C78_argument_partial, C78_configuration_refuted, C80_shear, C80_q, C80_q_shift, C80_triaxial, C83_scalar_shear_strain_partial, C84_dt_crit_partial, C86_gravity_momentum, C87_virial, C87_no_torque, C87_nodal_virial, C88_particle_damping_ignored, C88_particle_damping_refuted, C89_velocity, C89_every_point, C90_cloud, C90_sign, C90_radius, C94_axial_strain_partial, C94_constant_rate, C94_static, C94_axial_strain_refuted, C95_stress_density_partial, C95_stress_density_refuted, C96_confinement_partial, C96_elastic_limit_partial, C96_confinement_refuted, C97_step_partial, C97_run_space_partial, C97_run_plane_partial, C97_usl_store_refuted, C98_galilean, C99_once, C99_idle, C99_elastic_run, C99_two_grids_refuted, C100_aflip_partial, C100_usl, C100_near_wall_refuted, C101_table, C101_range, C101_samples_partial, C101_accuracy_partial, C101_samples_refuted, C101_placed, C101_plane_refuted, C102_lipschitz, C102_clamped, C102_bounds_partial, C102_bounds_refuted, C102_gradient, C102_normal_refuted, C103_restitution_refuted, C103_energy_partial, C103_energy_refuted, C104_lines_partial, C104_specific_volume, C104_cycle_refuted, C104_floor_refuted, C105_linear_elastic, C105_cam_clay_partial, C105_drucker_prager_partial, C105_drucker_prager_refuted, C106_shear_partial, C106_shear_refuted, C106_from_stress, C106_from_density, C106_unusable_refuted, C107_isotropic, C108_usl_partial, C108_aflip_refuted, C108_elastic_refuted, C109_memory_partial, C109_reconnect_refuted, C110_newton, C110_mu_i, C111_usl, C111_aflip, C111_grid_update, C111_free_step, C111_flip, C112_step, C112_run, C113_step, C113_run, C113_dust_run, C116_outline, C116_placed, C116_symmetry, C117_unique, C117_principal, C117_frames, C117_volume_partial, C117_run_partial, C117_inverted_refuted, C118_values_partial, C118_missing_refuted, C118_rest_refuted, C119_wall_partial, C119_wall_refuted, C120_invariants, C120_level_partial, C120_slope_refuted, C120_plane_refuted, C120_ratio_refuted, C121_critical_state, C121_compression, C122_inertial_partial, C122_order, C122_floor_refuted, C123_first_order_partial, C123_sign_refuted, C124_mu_i_partial, C124_mu_i_keeps, C124_shear_refuted, C124_linear_elastic, C124_reference_refuted, C125_step, C125_volume_space, C125_volume_plane, C125_store_lost_refuted, C125_store_refuted, C126_balance, C126_affine, C126_linear, C126_spin_refuted, C127_friction_refuted, C128_files, C128_colours_partial, C128_colours_refuted, C128_domain_partial, C128_domain_refuted, C129_lattice, C129_resolution, C129_seen_partial, C129_domain_partial, C129_seen_refuted, C129_disc_refuted, C129_lines, C129_triangles, C129_normals_refuted, C130_axis, C130_unit, C130_sum, C130_quadratic_refuted, C131_accuracy, C131_power_of_two, C131_bound, C131_stall, C131_advance_refuted, C132_total, C132_exact_refuted, C133_friction, C133_surface, C133_form_refuted, C133_lines, C133_flow, C133_state, C133_state_refuted, C133_constants, C134_plastic, C134_line, C134_elastic, C134_history, C134_flow, C134_strain, C134_return_refuted, C134_reset_refuted, C134_floor_refuted, C134_rest, C134_body, C135_spectrum, C135_rms, C135_rms_refuted, C135_relief, C135_flat, C135_profile, C135_distance, C135_distance_refuted, C135_normal, C135_step_refuted, C135_friction, C135_rest, C135_motion_refuted, C135_aabb, C135_aabb_refuted, C136_times, C136_gravity, C137_ranges, C137_material, C137_density_refuted, C137_curve, C137_values, C137_interpolation, C137_loss, C137_reported_partial, C137_reported_refuted, C138_samples, C138_complete, C138_units, C138_undrained, C138_axial_refuted, C138_modes, C138_drained_refuted, C139_return, C139_jacobian, C139_newton, C139_units_refuted, C139_strain_refuted, C140_normal, C140_domain, C140_refuted, C140_tie, C141_closest, C141_ghost, C141_midpoint, C141_mask, C141_mask_bounds, C141_inert, C141_ghost_of, C142_number, C142_order, C142_again, C142_points, C142_whole_refuted, C142_volume_refuted, C143_steady, C143_rate, C143_exists, C143_reported, C143_trial, C143_slow, C143_cam_clay, C143_lines, C143_shift_refuted, C144_step, C144_run, C144_obstacles, C145_step, C145_run, C145_cells, C146_step, C146_dynamic, C146_run, C146_extent_refuted, C147_points, C147_distinct, C147_congruent, C147_symmetric, C147_centre, C147_default_refuted, C147_start, C147_goes_on, C147_momentum, C148_points, C148_count, C148_mass_refuted, C148_friction, C148_compression_refuted, C148_start, C148_run, C148_times_refuted, C148_goes_on, C148_clear, C149_ncl, C149_csl, C149_critical, C149_swelling_refuted, C149_start.
<!-- end assumptions -->

## 4. Seeded errors

`seeded/LOG.jsonl` lists edits of model definitions made in a scratch copy, one per line, with what then failed to build.
"killed" means that the proof script of a listed theorem, or of a lemma it rests on, no longer compiles after the edit.
That is evidence, not a proof that the statement is false of the edited model: a script can also break for other reasons.
`theorems_failed` holds the property theorems among them, directly or through a failed lemma.
Edits no theorem noticed are kept with the outcome "survived"; `theorems_tightened` names what was added or strengthened for it.
Entries whose edit text contains "fix" repair a reported defect: there a `_refuted` theorem is expected to fail.
