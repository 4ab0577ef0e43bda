NOTES = {
 "C05": "Holds for quadratic and cubic kernels and for the linear kernel off grid lines. Finding: on a grid line the linear kernel's gradient at the node is 0 (sign(0)) and the neighbours' gradients are 0, so the velocity gradient along that axis is lost (C05_linear_kernel_on_grid_line).",
 "C11": "Exact arithmetic. The quadratic kernel needs two layers unless the box is a whole number of cells (C11_one_layer_not_enough_for_quadratic).",
 "C14": "Finding: gather_from_grid reads cache.window_size, which InteractionCache does not have, so every call raises AttributeError. The code after the lookup interpolates correctly.",
 "C85": "True in exact arithmetic. Finding: int(raw+1) truncates a binary64 quotient, e.g. origin 0, end 1, cell_size 0.1, padding 2 gives 14 nodes instead of 15.",
 "C18": "Finding: P2G starts each coupling's force scatter from zeros and overwrites the grid's force stack, so with several bodies on one grid only the last active coupling's internal forces survive.",
 "C21": "Finding: both docstrings are reversed; alpha = 0 is PIC and alpha = 1 is FLIP.",
 "C26": "Holds for USLAFLIP. Finding: USLSolver stores the transposed velocity gradient (outer(grad, v) instead of outer(v, grad)).",
 "C27": "Finding: the force stack of every coupled body is zeroed at the start of a step, so user forces never act.",
 "C28": "Finding: the computed compatibility mask is replaced by jnp.ones_like(mask).",
 "C29": "Holds when the solver has one SDF logic per SDF state. Finding: with a subset the state list shrinks and logics are paired with the wrong states.",
 "C30": "Holds when couplings of one body and grid agree on the shape functions. Finding: interactions are stored by (p_idx, g_idx), the last coupling wins.",
 "C31": "Finding: a body with one particle loses the axis of its volume stack (.squeeze()), so the second step fails.",
 "C35": "The speed is limited; finding: the position update uses the unlimited velocity.",
 "C36": "Range proved. Finding: alpha_support_min / alpha_support_max are never read; 1.1 and 0.4 are hard-coded.",
 "C37": "Holds when s_idx = p_idx. Finding: P2G reads solver_states[s_idx], G2P writes solver_states[p_idx]; other coupling orders mix the bodies.",
 "C38": "Finding: use_mls_update=False raises AttributeError in every step (BodyCoupling has no shapefunction).",
 "C88": "Finding: particle forces are zero when the hook runs (reset at the start of the step), so damping on particles does nothing.",
 "C39": "2-D and explicit volumes hold. Findings: the default volume is cell_size**2/ppc also in 3-D; a keyword points_per_cell is not the argument name the dispatcher reads.",
 "C43": "Magnitude proved. Finding: the stress is -p I + ... under a compression-positive convention, so a compressed fluid pulls.",
 "C44": "Density reference proved. Finding: NewtonFluid.create_state raises TypeError.",
 "C45": "Finding: the shear stress is half of mu(I) p.",
 "C46": "Holds for mu_1_hat = 0. Finding: with dilatancy the pressure correction has the wrong sign for the tension-negative trial and the returned stress is outside the yield surface.",
 "C47": "Finding: a return to the apex decreases the accumulated plastic strain when mu_2 > 0.",
 "C50": "Holds above p_min. Finding: below p_min the deviator is taken about p_min and the pressure keeps the deficit.",
 "C51": "3-D proved. Finding: in 2-D the out-of-plane stretch becomes 0, the determinant 0.",
 "C79": "Finding: the void ratio obtained from the bulk density is off by one.",
 "C83": "Findings: the deviatoric strain stack helper recurses into itself; get_scalar_shear_strain raises TypeError when called without dev_strain.",
 "C84": "Proved for linear elasticity, Newtonian fluid, mu(I). Findings: DruckerPrager.get_dt_crit reads rho_stack (AttributeError); ModifiedCamClay has no get_dt_crit.",
 "C53": "Finding: Gravity.apply_pre_p2g assigns mp_states[self.p_idx], an attribute that does not exist; every step raises AttributeError.",
 "C55": "Proved for nodes heavier than 1e-14 and unit normals, with a bound for the slightly short normals of the library. Finding: lighter nodes lose their momentum even far from the wall.",
 "C56": "Finding: the gap never has an effect because bias_factor is 0; add_sdf_collider drops its friction argument.",
 "C57": "Finding: GridContact.apply_grid_moments takes 7 positional arguments, the solver passes 8; every step with a contact raises TypeError.",
 "C65": "Sign characterised exactly for box, capsule, cylinder and torus. Finding: the smoothed norm makes a layer of 1e-6 inside the surface count as outside.",
 "C67": "Proved for the box shifted by the offset. Finding: wall_offset is added to both corners, so the container is translated; the upper walls move outwards.",
 "C68": "Distance, friction and normal proved for every shape but DomainSDF. Finding: DomainSDF ignores its state, it does not move with it.",
 "C69": "Translation and 2-D angle proved; the 3-D orientation stays within 1e-12 of unit length for every number of steps and equals the iterated increment up to a positive factor. It is never exactly a unit quaternion after an update, and DomainSDF does not move.",
 "C70": "The 2-D side view respects the height. Finding: in 3-D the vertical distance is the signed coordinate, the height is never read: the pipe extends infinitely downwards and ends at its centre.",
 "C59": "Positions proved for every script of calls. Force states proved when no collider (or failed gravity) came before, and the exact offset otherwise; solver states proved for the first solver made from all couplings. Findings: colliders register no state, so a gravity or damping added after one reads its neighbour's state or none; a solver for a sub-list of couplings finds its states at wrong indices.",
 "C60": "Exact criterion proved, hence correct for one grid/law or one per coupling in order. Finding: grids and laws are stored per coupling but indexed by the global index, so couplings [grid 1; grid 0] swap their grids (and likewise their laws).",
 "C61": "Rejection proved for every other string; builder unchanged when no rigid body is coupled. Finding: with a rigid body coupled, a None is left among the solver states.",
 "C62": "Proved for DomainSDF and for a given centre. Finding: for every other class get_world_aabb fails, so the call is a TypeError.",
 "C63": "Proved for every law but linear elasticity. Finding: for LinearElasticLaw the supplied state is dropped and None stored.",
 "C91": "Finding: a rigid coupling has no law, and the solver constructors reject a None among the laws, whatever the selection and scheme.",
 "C92": "Proved for arrays. Finding: a tuple is a TypeError (field annotation) and the force logic stays registered.",
 "C72": "Candidates, their cells and their number proved; inside the cell proved when cell_size exceeds (2k-1)/(2k). Finding: the offsets inside a cell are not scaled by cell_size, so for smaller cells candidates lie outside their cell, and the candidates of neighbouring cells coincide when cell_size = m/k.",
 "C73": "Modes regular and random proved. Finding: the other documented modes, including the default of the argument (uniform), always raise.",
 "C93": "With overwrite=False the run is kept and returned. Finding: the documented recipe uses the default overwrite=True, which deletes the saved run.",
 "C77": "Proved when stride divides num_steps. Finding: otherwise run raises TypeError (reshape), although the docstring offers any stride.",
 "C78": "The argument of step is honoured. Finding: the field is_F_linear_approx is never read.",
 "C94": "Proved for arrays of rates and time steps with stride 1. Finding: for a constant rate every entry but the last of a stride 1 run is wrong (linspace starts at 0 and spreads n points over n steps); with start_static, as in the project scripts, every listed strain is the true one times n/(n-1) (C94_static).",
 "C95": "Finding: the law sees the volume of before the step; the returned stress belongs to the previous density (witness: Newtonian fluid).",
 "C96": "Exact error for linear elasticity: one fifth per iteration, hence the limit. Finding: for a Newtonian fluid the stress of a step does not depend on the lateral rate (C95), the iteration never moves and the pressure is not controlled. Other laws not covered.",
    "C97": "Proved for steps and runs of solvers whose laws do not reset F (a reset replaces F, see C51 and C125). Finding: the USL solver never updates F_store_stack (usl.py 718-729 writes F_stack only), so a stored gradient stays at its initial value; USL_ASFLIP updates it.",
    "C98": "Two-run theorem: existence of the boosted step and equality of everything but position and velocity. Hypotheses: interior points, one active coupling per body, gravity-only forces, nodes above the mass cutoff.",
    "C99": "Proved when each body and each law state has one active coupling. Finding: a body coupled to two grids has its law evaluated (and its strain increment counted) twice per step (usl.py 743-766 walks couplings, not bodies); C99_two_grids_refuted shows the elastic stress is that of 2 dt.",
    "C100": "The beta switch is proved for cells up to 1e9. Finding: usl_asflip.py 343 sets min_dist_to_wall to 1e9 and the code that would compute it is commented out, so 'CPIC safety: disable correction when near wall' never acts: C100_near_wall_refuted.",
    "C101": "Range and accuracy for all tables; samples reproduced to 3e-12 of the scale. Finding (tiny): exact reproduction is false because gridsdf.py 68 divides by grid_size + 1e-12, which shifts every index coordinate.",
    "C102": "Lipschitz bound, derivative and clamping proved for every table; containment in get_local_bounds proved when the face samples lie outside the thickened body. Findings: (1) if the thickness reaches a face of the table the body extends to infinity (mode='nearest' clamps), so get_local_bounds, which is enlarged by the thickness, does not contain it; (2) beyond a corner of the table the gradient vanishes and the normal is the zero vector.",
    "C103": "Exact rebound velocity for all states; energy bound proved for receivers no heavier than the actor. Finding: gridcontact.py 207-216 gives the actor the receiver's whole impulse m_r v_n instead of the one of the reduced mass, so the pair rebounds with restitution m_r/m_a (never 0) and a heavy receiver multiplies the energy (witness 3 kg on 1 kg: three times).",
    "C104": "Exact relation along any history of connected increments. Findings: a closed cycle of velocity gradients does not return the grid volume the stress state assumes ((1+e)(1-e) < 1 while exp(e)exp(-e) = 1), and below the pressure floor the volume relation fails.",
    "C105": "Finding: DruckerPragerState stores only the mean of the initial stress (druckerprager.py 75-86), the deviator is lost in the first step at rest.",
    "C106": "Findings: modifiedcamclay.py 241-243 compares the absolute distance to the yield surface, so a shear stress inside is replaced by the one on the surface; states from create_state_from_stress and create_state_from_density have no stress_ref_stack, so the first update raises; create_state raises (jnp.full called with a float shape).",
    "C107": "Cam-Clay needs admissible parameters (mcc_params): with a zero return factor jnp.where(x, x, d) acts component by component.",
    "C108": "USL carries correctly because it stores the transposed gradient (C26). Findings: with USL_ASFLIP, which stores minus the gradient, Drucker-Prager and Cam-Clay turn their stress against the motion; linear elasticity does not turn the stress at all.",
    "C109": "Holds in every connected branch. Finding: a separated point has zero stress and zero strain but keeps p0, so a step at rest after it touches again puts it at the initial pressure at once.",
    "C111": "Hypotheses of P2G: interior points and one kernel per (body, grid) (C30). Grid update for a single active body because of C18. The loss of the share 1 - alpha is exact (C111_free_step).",
    "C112": "USL only: with AFLIP the affine matrices can extrapolate.",
    "C113": "C113_dust_run needs no hypothesis on visited states; existence of the run comes from C31.",
    "C114": "Necessary and sufficient under not_single (C31: a single-point body loses an array axis after the first G2P). A state lacking SDF states, laws or affine matrices fails inside the step, not when built.",
    "C115": "Proved with the colliders registered after gravity and damping. Refuted otherwise: a collider takes a number but registers no state, so gravity added after it looks up a state that is not there and the first step raises IndexError.",
    "C116": "arctan2 over the reals is defined in SpecStar; n = 1 is excluded (the outline degenerates to a segment).",
    "C117": "jnp.linalg.svd is an argument: the theorems hold for every function returning some decomposition. Findings: an inverted point reports the strain of its mirror image, and stretches below 1e-12 are reported as 1e-12, so the volumetric strain is not the volume ratio there.",
    "C118": "Findings: KE_density_stack and q_p_stack are silently None; stored_shear_strain_stack raises ValueError without store_F; shear strains and rates never fall below 1e-8, so a body at rest reports 1e-8.",
    "C119": "Exact on affine masses up to the factor cell size. Findings: the spacing is not passed to jnp.gradient although the comment divides by 2dx, and the estimate is not normalised, so a rigid collision multiplies the approach velocity by 1 - |n|^2 instead of removing it. The hook calling it cannot run (C57).",
    "C120": "Findings: on a slope the reconstructed stress has no shear traction; the vertical is the third axis, so in 2-D the vertical stress is only k0 times the weight above; a ratio above 1 is lost because q has no sign. Level 3-D beds with k0 <= 1 start in equilibrium.",
    "C121": "Proved over the reals with positive pressures.",
    "C122": "Finding: below the pressure 1e-6 the helper reports a smaller number than the law uses.",
    "C123": "Findings: the small strain is positive in extension while every other strain is positive in compression; a rotation by t gives the strain cos t - 1.",
    "C124": "The mu(I) part was added because a seeded error (reference density from the current instead of the initial volume) was not caught. Findings: the first mu(I) update drops the initial shear stress; LinearElasticLaw.create_state ignores stress_ref_stack when densities are given.",
    "C125": "Volumes: proved over runs in 2-D and 3-D. Finding: a resetting law overwrites F_store_stack with the current, already reset, F (constitutive_law.py 54-59) instead of accumulating, so shear of earlier steps is lost from the stored gradient.",
    "C24": "Proved for laws that do not reset F; with any law everything but F22 stays planar. Finding: the 2-D reset rebuilds F with F22 = 0, so a resetting law leaves plane strain.",
    "C126": "C126_balance holds for every field; it is conservation for affine nodal velocities with the quadratic or cubic kernel, and for any field with the linear kernel when second moments are taken at the old positions. Finding: the stored matrix is -sum v (x) grad w, while p2g pairs it with the lever arm, which preserves angular momentum only in those cases: a lone point at rest under symmetric shear stress comes out with spin 1/110, against the docstring of usl_asflip.py.",
    "C127": "Proved for couple (exactly when accepted and what is then registered), gravity, damping, contact, set_solver and build. Finding: add_sdf_collider drops its friction argument, so a collider asked to be frictionless has friction 1 (C127_friction_refuted).",
    "C128": "Files, positions, radii and rows proved for every history. Findings: property_name=None raises UnboundLocalError (vtk_io.py 70-82); fields that spread over less than 1e-6 get a single colour; both visualisers draw the domain one cell too large at its far sides.",
    "C129": "Lattice, resolution, coverage, line and triangle connectivity proved. Findings: the sampled box is 1.05 end - 0.95 start long, so where start + end < 0 the far part of the domain is never sampled and obstacles there are not drawn (a whole disc is missed at every resolution); VTK log_sdf without a step raises TypeError, its 'static' suffix is unused; Rerun exchanges two components of the normals but not of the vertices. Assumes marching_cubes returns vertices and normals in the same index order.",
    "C130": "Proved for the linear kernel in every binary format (each operation rounded to nearest even, no overflow, no fused multiply-add). Finding: the quadratic and cubic kernels give negative weights of about one unit in the last place just inside the edge of their support (C130_quadratic_refuted for every precision, C130_ieee_refuted for IEEE binary32 and binary64).",
    "C131": "Accuracy, the exact law for power-of-two time steps and the bound on reachable times are proved in every binary format. Finding: the accumulated time stops growing after at most 2^(p+1) steps, in single precision at 128 s for a time step of 2^-17 s; steps go on and nothing is reported (C131_advance_refuted).",
    "C132": "The bound is proved for grids whose couplings all use the linear kernel, with operations rounded one by one in table order. Exact conservation fails in every format (C132_exact_refuted: underflow can lose all of it).",
    "C133": "Proved for the residual form used by the update. Findings: get_unified_iys, with 1e-12 in its denominator, has another zero set (C133_form_refuted); create_state_from_ocr ignores q_stack, every point starts without shear (C133_state_refuted); the flow direction is normal to the static surface, not to the inertial one.",
    "C134": "The volume line, the bounds and the meaning of the residuals hold whatever the Jacobian and whether or not the iteration converges. Findings: log p_s moves by at most 0.8 in a step, so a step compressing by more than 0.8 lambda ends outside every inertial yield surface (C134_return_refuted); an elastic step discards the inertial number and with it specific volume (C134_reset_refuted); a plastic step from a pressure below 1 starts from 1 (C134_floor_refuted).",
    "C135": "Proved: spectrum, mean square, relief, flat part, profile, normal, friction, height as a two-sided bound of the distance. Findings: with one wavelength and several harmonics the floor is rougher than asked (C135_rms_refuted); the value is height above the floor, larger than the distance beside a bump (C135_distance_refuted); the floor has a step at x_max, where the waves start again (C135_step_refuted); a floor given a velocity reports it to the collider but never moves (C135_motion_refuted); the box ends at the lowest point of the surface and leaves the solid below out (C135_aabb_refuted).",
    "C136": "Proved for both entry points what each state is. Findings: run ignores the tilt of its parameters and keeps the gravity of the template (C136_tilt_refuted); run logs after steps 1, 1 + n, 1 + 2n and a trajectory after n, 2n, so they never show the same step (C136_frames_refuted); params=None, the default, always raises (C136_default_refuted); a trajectory drops the steps after its last whole output interval.",
    "C137": "Proved for every optimizer that returns updates of the population's shape; adam and the gradient are parameters. Findings: the parameters reported are those after the last update, picked by the losses before it, so the reported loss is not theirs and another chain may be better (C137_reported_refuted; C137_reported_partial says what holds); the range of N admits specific volumes below one, so samples with N <= 1 start denser than their grains (C137_density_refuted).",
    "C138": "Proved: samples, completeness, units, undrained strains. Findings: samples called drained are run at constant mean stress, so the lateral stress departs from the confinement (C138_drained_refuted); the stored axial strain lags the stored strain tensor at every step but the last (C138_axial_refuted).",
    "C139": "Proved: what the residuals of the last iterate say about the returned stress, that Newton's matrix is the derivative away from the corners of the bulk modulus, and what one step does. Nothing is claimed about how small the residuals are after ten steps. Findings: the logarithm of the preconsolidation pressure is cut at zero, so with a preconsolidation pressure below one unit of stress every yielding step hardens the clay to one and drops the pressure (C139_units_refuted); elastic and yielding steps store different elastic strains for the same pressure (C139_strain_refuted).",
    "C140": "Proved for every shape and for unions, in both dimensions, at every point where no two faces are equally near and no coordinate that enters by its absolute value is zero. Finding: on the middle plane of a plate the normal is the zero vector although the point is inside, because the slope of the absolute value at zero is taken as zero (C140_refuted).",
    "C141": "C141_inert is a finding stated as a theorem: because ones are stored instead of the computed mask (C28), a run with obstacles and no collider is, over the reals, the run without them; obstacles neither block the transfer nor give a ghost velocity. C141_mask gives what the computed mask would be: a node counts as inside up to one cell away from the obstacle. In 2-D the embedded origin has z = 0.",
    "C142": "Findings: when the whole state is saved the stress is not divided by 1000, so every stress from 65.52 kPa on is stored as infinity (C142_whole_refuted); volumes are stored in cubic metres, so points of a 5 mm cell with eight points are stored with volume zero, the smallest half being 2^-24 (C142_volume_refuted). The store itself (zarr, compressor) and the JSON file are not modelled.",
    "C143": "Steady states and the rate-independent limit are those README.md announces (C143_steady, C143_exists, C143_slow, C143_cam_clay); the limit is the library's Cam-Clay residual with p_c = 2 p_s for equal moduli, the law's own shear modulus being taken at the mean of old and trial pressure. Finding: get_ps_I, which draws the yield surfaces of the theory figures, shifts p_s by exp(I/I_v), while the hardening rule without plastic volume change shifts it by exp(I/(I_v (lambda - kappa))) (C143_shift_refuted). The convergence of the Newton iteration to a root is a hypothesis here.",
    "C144": "Proved at the reals as an equation between results, so errors agree as well. Library obstacles are moved by their centre, the domain box by its corners (C144_obstacles; see C68_refuted for the box moved by its centre). In floating point the equation holds only up to rounding and is not claimed.",
    "C145": "Equality of results at the reals. The hypothesis [fits] asks every coupled body, skipped couplings included, to have its stencils within the smaller grid; what happens outside is C09 and C146. C145_cells combines this with C144.",
    "C146": "FINDING: nothing reports that a point has left the grid; it freezes where it is (C146_run), so a domain that is too small changes the result without an error (C146_extent_refuted, against C145_step). Points with part of their stencil outside are not described here beyond C09.",
    "C147": "FINDING: the spacing is cell/(ppc/2) but the area given to a point is cell^2/ppc; they agree only for ppc = 4 (C147_area), and with the default ppc = 2 of create_circle the body has half the density asked for (C147_default_refuted). The momentum theorem assumes, for each step taken, interior points and touched nodes above the mass cutoff (C147_case shows both for the first step of the script). The rounding of jnp.arange and the viewer are not modelled.",
    "C148": "FINDING: the spacing is cell/ppc, so a cell holds ppc^2 points, but each is given the area cell^2/ppc: the column weighs ppc times too much (C148_mass_refuted; twice with the numbers of the script). C148_compression_refuted: on the Mohr-Coulomb cone in triaxial compression the law is already beyond its own. C148_friction assumes a deviatoric stress above the floor 1e-12 of the code. C148_case shows the numbers of the script and that the stress states assumed are reached. C148_steps_refuted: int(2.0 / 1e-5) is 199999 in binary64, one step short of the total time. C148_times_refuted: the callback gets the states one step after the multiples of the output time. The rounding of jnp.arange and the viewer are not modelled; a positive output step is assumed.",
    "C149": "FINDING: the swelling line of the plot is evaluated at 10 Pa and at p_c but drawn at 1 and 10 kPa, so it agrees with the swelling line only at its right end and is three times as steep (C149_swelling_refuted). The volume in C149_start is computed from mass over volume without the guard 1e-16 of the property density_stack. The run itself is TriaxialTest (C76, C77, C94-C96); matplotlib is represented by straight segments on logarithmic axes.",
}
NOT_APPLICABLE = {}
