{"id": "C01", "title": "Shape weights form a partition of unity", "statement": "For every material point whose whole stencil lies inside the grid, the weights `shape_vals` that ShapeFunctionMapping.compute returns for that point sum to exactly 1, for the linear, quadratic and cubic kernels in 2-D and 3-D.", "quantifier": "every kernel, dimension 2/3, real position, origin, positive cell size and grid size with the stencil inside the grid", "why_tests_cant": "A test samples a few positions; the claim is over a continuum of real positions, all cell sizes and all grids.", "anchors": ["hydraxmpm/shapefunctions/mapping.py: ShapeFunctionMapping.compute", "hydraxmpm/shapefunctions/linear.py", "hydraxmpm/shapefunctions/quadratic.py", "hydraxmpm/shapefunctions/cubic.py"]}
{"id": "C02", "title": "Shape weights are non-negative and at most one", "statement": "Every weight returned by ShapeFunctionMapping.compute lies in [0,1], for every material point, inside or outside the grid, so grid masses are never negative.", "quantifier": "every kernel, dimension 2/3, real position and grid", "why_tests_cant": "A test samples a few positions; the claim is over a continuum of real positions, all cell sizes and all grids.", "anchors": ["hydraxmpm/shapefunctions/mapping.py: ShapeFunctionMapping.compute", "hydraxmpm/shapefunctions/linear.py", "hydraxmpm/shapefunctions/quadratic.py", "hydraxmpm/shapefunctions/cubic.py"]}
{"id": "C03", "title": "Shape gradients sum to zero", "statement": "For every material point whose whole stencil is inside the grid the gradients `shape_grads` of that point sum to the zero vector, so a uniform field has zero gradient and internal forces are self-equilibrated.", "quantifier": "every kernel, dimension 2/3, real position, cell size and grid with the stencil inside", "why_tests_cant": "A test samples a few positions; the claim is over a continuum of real positions, all cell sizes and all grids.", "anchors": ["hydraxmpm/shapefunctions/mapping.py: ShapeFunctionMapping.compute", "hydraxmpm/shapefunctions/linear.py", "hydraxmpm/shapefunctions/quadratic.py", "hydraxmpm/shapefunctions/cubic.py"]}
{"id": "C04", "title": "Shape weights reproduce position exactly", "statement": "For every material point whose whole stencil is inside the grid, the weighted average of the stencil node positions equals the particle position (equivalently the weighted rel_dist is zero).", "quantifier": "every kernel, dimension 2/3, real position, cell size and grid with the stencil inside", "why_tests_cant": "A test samples a few positions; the claim is over a continuum of real positions, all cell sizes and all grids.", "anchors": ["hydraxmpm/shapefunctions/mapping.py: ShapeFunctionMapping.compute", "hydraxmpm/shapefunctions/linear.py", "hydraxmpm/shapefunctions/quadratic.py", "hydraxmpm/shapefunctions/cubic.py"]}
{"id": "C05", "title": "Shape gradients reproduce linear fields", "statement": "For every material point whose whole stencil is inside the grid, the sum over the stencil of node position (component a) times weight gradient (component b) is 1 if a=b and 0 otherwise, so velocity gradients of affine grid fields are exact.", "quantifier": "every kernel, dimension 2/3, real position, cell size and grid with the stencil inside", "why_tests_cant": "A test samples a few positions; the claim is over a continuum of real positions, all cell sizes and all grids. The failure at particles sitting exactly on a node line (linear kernel) is a measure-zero set sampling will miss.", "anchors": ["hydraxmpm/shapefunctions/mapping.py: ShapeFunctionMapping.compute", "hydraxmpm/shapefunctions/linear.py: _linear_shapefunction", "hydraxmpm/shapefunctions/quadratic.py", "hydraxmpm/shapefunctions/cubic.py"]}
{"id": "C06", "title": "Returned gradient is the derivative of the returned weight", "statement": "`shape_grads` is the partial derivative of `shape_vals` with respect to the particle position along every axis, for every node of the stencil.", "quantifier": "every kernel, node offset, axis and real relative position where the weight is differentiable", "why_tests_cant": "Numerical differentiation at sample points cannot establish a derivative identity on every spline piece and at every knot.", "anchors": ["hydraxmpm/shapefunctions/linear.py", "hydraxmpm/shapefunctions/quadratic.py", "hydraxmpm/shapefunctions/cubic.py"]}
{"id": "C07", "title": "Interaction indices are always in range", "statement": "For any positions, including far outside the domain, every node hash returned by compute is a valid node index of the grid, every point id a valid point index, and each (point, stencil slot) pair occurs exactly once, in row-major order.", "quantifier": "every number of points, position, grid size with at least one node per axis", "why_tests_cant": "Index safety must hold for every position and size; JAX silently clamps or drops out-of-range indices so a test sees no error.", "anchors": ["hydraxmpm/shapefunctions/mapping.py: ShapeFunctionMapping.compute"]}
{"id": "C08", "title": "Node hash, node position and relative distance agree", "statement": "For a stencil node inside the grid, the node's entry in GridDomain.position_stack at its hash is the node whose offset from the particle is -rel_dist * cell_size, and different in-grid stencil slots of one particle have different hashes.", "quantifier": "every position, grid and stencil slot", "why_tests_cant": "Requires the row-major numbering of two separately written functions to agree for every grid shape.", "anchors": ["hydraxmpm/shapefunctions/mapping.py: ShapeFunctionMapping.compute", "hydraxmpm/grid/grid.py: GridDomain.position_stack"]}
{"id": "C09", "title": "Nodes outside the grid receive nothing", "statement": "A stencil slot whose node is outside the grid has weight 0 and gradient 0, so the node its clipped hash aliases is not polluted.", "quantifier": "every position, grid and stencil slot", "why_tests_cant": "Quantifies over all positions outside or near the border of all grids.", "anchors": ["hydraxmpm/shapefunctions/mapping.py: ShapeFunctionMapping.compute"]}
{"id": "C10", "title": "The stencil misses no node with non-zero weight", "statement": "Every grid node whose kernel value at the particle is non-zero belongs to the particle's stencil.", "quantifier": "every kernel, dimension, real position, integer node index", "why_tests_cant": "A test samples a few positions; the claim is over a continuum of real positions, all cell sizes and all grids.", "anchors": ["hydraxmpm/shapefunctions/mapping.py: kernels, ShapeFunctionMapping.compute"]}
{"id": "C11", "title": "A padded grid contains the stencil of every point of the user's box", "statement": "If a grid is created by GridDomain.create with padding at least 1 (linear) or 2 (quadratic, cubic), then in exact arithmetic every particle anywhere in [origin, end] has its whole stencil inside the grid, so C01-C05 apply to it.", "quantifier": "every box, cell size, padding and position in the box", "why_tests_cant": "All box sizes, cell sizes and positions up to the boundary.", "anchors": ["hydraxmpm/grid/grid.py: GridDomain.create", "hydraxmpm/shapefunctions/mapping.py: ShapeFunctionMapping.compute"]}
{"id": "C12", "title": "Grid numbering is a bijection", "statement": "num_cells is the length of position_stack and row-major unravelling/ravelling of in-range indices are inverse to each other, so each node is counted once.", "quantifier": "every grid shape of any dimension", "why_tests_cant": "All grid shapes.", "anchors": ["hydraxmpm/grid/grid.py: num_cells, position_mesh, position_stack"]}
{"id": "C13", "title": "scatter_to_grid conserves and averages", "statement": "Without normalisation the sum over nodes of scatter_to_grid equals the sum over particles of mass times datum (stencils inside); with normalisation a constant datum is returned unchanged on each node whose weight exceeds the cutoff and 0 elsewhere.", "quantifier": "every particle set, data, mass, interaction cache and cutoff", "why_tests_cant": "Sums over arbitrary numbers of particles and arbitrary overlap of stencils.", "anchors": ["hydraxmpm/shapefunctions/mapping.py: ShapeFunctionMapping.scatter_to_grid"]}
{"id": "C14", "title": "gather_from_grid interpolates grid data", "statement": "gather_from_grid returns, for each particle, the weighted sum of the grid data over its stencil; a constant grid field is returned unchanged for interior particles.", "quantifier": "every cache and grid data", "why_tests_cant": "The statement is about every cache; the shipped tests call an older API.", "anchors": ["hydraxmpm/shapefunctions/mapping.py: ShapeFunctionMapping.gather_from_grid, InteractionCache"]}
{"id": "C15", "title": "P2G conserves mass", "statement": "After the particle-to-grid transfer of one solver step the total mass of each grid equals the total mass of the material points of all its non-rigid couplings whose stencils are inside the grid, including bodies that share a grid.", "quantifier": "every number of bodies, couplings, particles and positions with stencils inside", "why_tests_cant": "Arbitrary many bodies sharing grids; float tests only check one small case.", "anchors": ["hydraxmpm/solvers/usl.py: USLSolver._p2g", "hydraxmpm/solvers/usl_asflip.py: USLAFLIP._p2g"]}
{"id": "C16", "title": "P2G conserves linear momentum", "statement": "After particle-to-grid transfer the total momentum of each grid equals the sum of m v over its coupled material points; for USLAFLIP the affine term adds nothing to the total.", "quantifier": "every number of bodies, particles, velocities and affine matrices with stencils inside", "why_tests_cant": "Arbitrary sums and arbitrary affine matrices.", "anchors": ["hydraxmpm/solvers/usl.py: USLSolver._p2g", "hydraxmpm/solvers/usl_asflip.py: USLAFLIP._p2g"]}
{"id": "C17", "title": "Internal forces are self-equilibrated", "statement": "With no external forces the nodal forces produced by P2G sum to zero for any stress state.", "quantifier": "every particle set, stress, volume with stencils inside", "why_tests_cant": "All stress states and positions.", "anchors": ["hydraxmpm/solvers/usl.py: USLSolver._p2g"]}
{"id": "C18", "title": "Nodal forces of all bodies on a grid are superposed", "statement": "If several bodies are coupled to the same grid the nodal force after P2G is the sum of every body's contribution, as for mass and momentum.", "quantifier": "every set of couplings sharing a grid", "why_tests_cant": "Needs a statement over all numbers and orders of couplings; a single-body test cannot see it.", "anchors": ["hydraxmpm/solvers/usl.py: USLSolver._p2g", "hydraxmpm/solvers/usl_asflip.py: USLAFLIP._p2g"]}
{"id": "C19", "title": "A step changes total momentum by exactly impulse", "statement": "For one body with interior stencils and all touched nodes above the mass cutoff, the total particle momentum after a USL step equals the momentum before plus dt times the total nodal force, for every alpha.", "quantifier": "every particle set, alpha, dt, nodal force", "why_tests_cant": "Sums over arbitrary particles and nodes for a continuum of alpha.", "anchors": ["hydraxmpm/solvers/usl.py: USLSolver._p2g, _integrate_grid, _g2p"]}
{"id": "C20", "title": "Uniform motion is preserved", "statement": "A stress-free body in uniform translation with no forces keeps its velocity, moves by v*dt, and keeps deformation gradient and volume, for both solvers.", "quantifier": "every particle set, uniform velocity, dt, alpha, kernel with interior stencils above the mass cutoff", "why_tests_cant": "All particle configurations; sampled checks only see round-off.", "anchors": ["hydraxmpm/solvers/usl.py: USLSolver.__call__", "hydraxmpm/solvers/usl_asflip.py: USLAFLIP._g2p"]}
{"id": "C21", "title": "alpha blends FLIP and PIC as documented", "statement": "alpha = 0 gives the pure FLIP velocity update and alpha = 1 the pure PIC update (class docstrings of USLSolver and USLAFLIP).", "quantifier": "every particle and grid state", "why_tests_cant": "The docstring is a claim for every state.", "anchors": ["hydraxmpm/solvers/usl.py: USLSolver docstring, _g2p", "hydraxmpm/solvers/usl_asflip.py: USLAFLIP docstring, _g2p"]}
{"id": "C22", "title": "Step bookkeeping over any number of steps", "statement": "After n successful solver calls step has grown by n, time by n*dt, dt is unchanged, the numbers of bodies and of points per body are unchanged, and every particle keeps its mass and initial volume.", "quantifier": "every solver configuration, state and number of steps", "why_tests_cant": "Induction over arbitrary histories and all library laws and forces.", "anchors": ["hydraxmpm/solvers/usl.py: USLSolver.__call__", "hydraxmpm/solvers/usl_asflip.py"]}
{"id": "C23", "title": "Rigid bodies are not modified by the solver", "statement": "Material points of a rigid body (skip_mpm_logic) are returned unchanged by a solver step, whatever the other bodies do.", "quantifier": "every configuration and state", "why_tests_cant": "All configurations and histories.", "anchors": ["hydraxmpm/solvers/usl.py: _reset_material_points, _g2p, _constitutive_update", "hydraxmpm/common/builder.py: couple"]}
{"id": "C24", "title": "Two-dimensional runs stay in plane strain", "statement": "In 2-D, after any number of steps F_stack keeps F[2,2]=1 and zero out-of-plane off-diagonals and L_stack has zero third row and column.", "quantifier": "every 2-D state, number of steps, both solvers", "why_tests_cant": "Inductive invariant over histories.", "anchors": ["hydraxmpm/solvers/usl.py: _g2p", "hydraxmpm/solvers/usl_asflip.py: _g2p", "hydraxmpm/shapefunctions/mapping.py: compute"]}
{"id": "C25", "title": "Volume follows the deformation gradient", "statement": "After G2P every particle has volume = det(F) * initial volume, so mass density is mass/(det F * V0).", "quantifier": "every state and solver", "why_tests_cant": "All deformation histories.", "anchors": ["hydraxmpm/solvers/usl.py: _g2p", "hydraxmpm/solvers/usl_asflip.py: _g2p"]}
{"id": "C26", "title": "L is the velocity gradient (compression positive)", "statement": "If the nodal velocities are an affine field v(x)=Ax+b then each interior particle receives L = -A (quadratic and cubic kernels) and F is advanced by (I + A dt)F.", "quantifier": "every affine field, particle, kernel, both solvers", "why_tests_cant": "A symmetric test field cannot distinguish a matrix from its transpose.", "anchors": ["hydraxmpm/solvers/usl.py: _g2p (einsum ij,ik->ijk)", "hydraxmpm/solvers/usl_asflip.py: _g2p"]}
{"id": "C27", "title": "User-supplied particle forces act", "statement": "External forces stored in MaterialPointState.force_stack (documented as external force vectors) contribute to the grid forces of the step.", "quantifier": "every force stack", "why_tests_cant": "Claim over all states and configurations.", "anchors": ["hydraxmpm/solvers/usl.py: _reset_material_points, _p2g", "hydraxmpm/material_points/material_points.py: force_stack"]}
{"id": "C28", "title": "SDF connectivity correction blocks interactions through walls", "statement": "When an SDF object lies between a particle and a node the CPIC-style correction removes (or damps) that interaction.", "quantifier": "every SDF set, particle and node", "why_tests_cant": "Universal over geometry.", "anchors": ["hydraxmpm/solvers/usl.py: _sdf_correction_connectivity"]}
{"id": "C29", "title": "A step keeps every SDF state", "statement": "The number of SDF states in the world is the same after a step as before, and each state moves with its own logic, also when the solver was given a subset of the SDFs.", "quantifier": "every builder selection of SDFs", "why_tests_cant": "All subsets.", "anchors": ["hydraxmpm/solvers/usl.py: _kinematic_update", "hydraxmpm/common/builder.py: set_solver"]}
{"id": "C30", "title": "Each coupling uses its own shape functions", "statement": "Two couplings of the same body and grid with different shape functions each transfer with their own weights.", "quantifier": "every list of couplings", "why_tests_cant": "All coupling lists.", "anchors": ["hydraxmpm/solvers/usl.py: _compute_connectivity"]}
{"id": "C31", "title": "Any body can be stepped repeatedly", "statement": "If a body is accepted by one solver step then the resulting state is accepted by the next one, for every number of particles including a single particle.", "quantifier": "every particle count and number of steps", "why_tests_cant": "Shape errors appear only for particular counts (1) and only at the second step.", "anchors": ["hydraxmpm/solvers/usl.py: _g2p (squeeze), _p2g", "hydraxmpm/solvers/usl_asflip.py: _g2p"]}
{"id": "C32", "title": "Scatter order is irrelevant", "statement": "Permuting the particles of a body (or the order in which scatter-add contributions are applied, which JAX leaves unspecified on GPU) does not change the grid mass, momentum or force in exact arithmetic, and permutes the particle results.", "quantifier": "every permutation and particle set", "why_tests_cant": "All permutations/schedules.", "anchors": ["hydraxmpm/solvers/usl.py: _p2g, _g2p"]}
{"id": "C33", "title": "Weights are translation invariant", "statement": "Translating particles and grid origin by the same vector leaves hashes, weights, gradients and rel_dist unchanged; translating the particles by a whole number of cells shifts node indices by that number and leaves weights unchanged.", "quantifier": "every translation, position, kernel", "why_tests_cant": "Continuum of translations.", "anchors": ["hydraxmpm/shapefunctions/mapping.py: compute"]}
{"id": "C34", "title": "AFLIP reproduces affine velocity fields", "statement": "If all particles carry velocity Ax+b and affine matrix -A, then after USLAFLIP P2G every touched node has velocity A x_node + b, and G2P returns affine matrix -A and velocity Ax+b (quadratic/cubic kernels).", "quantifier": "every affine field, particle set", "why_tests_cant": "Continuum of fields and configurations.", "anchors": ["hydraxmpm/solvers/usl_asflip.py: _p2g, _g2p"]}
{"id": "C35", "title": "CFL limiting bounds the motion per step", "statement": "After a USLAFLIP step no particle speed exceeds cfl_limit*cell_size/dt and no particle moves more than cfl_limit*cell_size in the step.", "quantifier": "every state", "why_tests_cant": "All states; the worst case needs adversarial velocities.", "anchors": ["hydraxmpm/solvers/usl_asflip.py: _g2p (CFL clamping, position update)"]}
{"id": "C36", "title": "Dynamic alpha stays between 0 and alpha", "statement": "The effective FLIP fraction used by USLAFLIP lies in [0, alpha], is 0 for support ratio at most alpha_support_min and alpha for ratio at least alpha_support_max.", "quantifier": "every support ratio and parameter choice", "why_tests_cant": "All parameters.", "anchors": ["hydraxmpm/solvers/usl_asflip.py: _g2p"]}
{"id": "C37", "title": "Affine state belongs to its body", "statement": "With several bodies, the affine matrices a body's P2G reads are those its own previous G2P wrote.", "quantifier": "every order of couplings and bodies", "why_tests_cant": "All coupling orders; one-body tests cannot see it.", "anchors": ["hydraxmpm/solvers/usl_asflip.py: _p2g (s_idx), _g2p (p_idx)", "hydraxmpm/common/builder.py: couple, set_solver"]}
{"id": "C38", "title": "The classic APIC option works", "statement": "USLAFLIP with use_mls_update=False performs the step with the documented Dp inverse.", "quantifier": "every state with an active coupling", "why_tests_cant": "Statement about all states.", "anchors": ["hydraxmpm/solvers/usl_asflip.py: _g2p (c.shapefunction)"]}
{"id": "C39", "title": "Material point creation defaults", "statement": "MaterialPointState.create gives every point the volume cell_size^dim / points_per_cell and mass = volume*density when they are not supplied, honouring the documented keyword points_per_cell.", "quantifier": "every position stack, dimension and keyword choice", "why_tests_cant": "All dimensions and keyword combinations.", "anchors": ["hydraxmpm/material_points/material_points.py: MaterialPointState.create"]}
{"id": "C40", "title": "Density and kinetic energy observables", "statement": "For positive masses and volumes density_stack is positive and within relative 1e-16/volume of mass/volume; KE_stack is non-negative and zero only at rest.", "quantifier": "every positive mass and volume, velocity", "why_tests_cant": "Continuum.", "anchors": ["hydraxmpm/material_points/material_points.py: density_stack, KE_stack"]}
{"id": "C41", "title": "Linear elasticity is linear, isotropic and path independent", "statement": "The LinearElasticLaw stress increment is linear in the strain increment, keeps symmetry, changes pressure by K*tr and deviator by 2G*dev, and a sequence of increments gives the stress of the summed increment.", "quantifier": "every sequence of velocity gradients, E, nu", "why_tests_cant": "Arbitrary length histories.", "anchors": ["hydraxmpm/constitutive_laws/linearelastic.py: LinearElasticLaw"]}
{"id": "C42", "title": "Elastic moduli are consistent and positive", "statement": "K, G and lambda derived from E and nu satisfy K = lambda + 2G/3, E = 9KG/(3K+G), and are positive for E>0, 0<nu<1/2.", "quantifier": "every E>0 and nu in (-1,1/2)", "why_tests_cant": "Continuum.", "anchors": ["hydraxmpm/constitutive_laws/linearelastic.py: get_bulk_modulus, get_shear_modulus, get_lame_modulus", "hydraxmpm/constitutive_laws/druckerprager.py: __init__"]}
{"id": "C43", "title": "A compressed Newtonian fluid is under positive pressure", "statement": "NewtonFluid follows the library's compression-positive convention: after an update with density at least the rest density the reported pressure_stack is non-negative, with value K((rho/rho0)^beta-1).", "quantifier": "every density, velocity gradient, K>0, beta>=1", "why_tests_cant": "Continuum; the sign convention is only visible when composed with the solver.", "anchors": ["hydraxmpm/constitutive_laws/newtonfluid.py: _update_stress", "hydraxmpm/material_points/material_points.py: pressure_stack", "hydraxmpm/utils/math_helpers.py: get_pressure"]}
{"id": "C44", "title": "Newtonian EOS and state creation are inverse", "statement": "create_state_from_density followed by an update at rest reproduces the stress it reported, and create_state builds a usable state.", "quantifier": "every density, K, beta", "why_tests_cant": "Continuum.", "anchors": ["hydraxmpm/constitutive_laws/newtonfluid.py: create_state_from_density, create_state"]}
{"id": "C45", "title": "mu(I) stress obeys the friction law", "statement": "For a connected particle MuI_LC returns pressure p>=0 and shear stress sqrt(J2) = mu(I)*p with mu between mu_s and mu_d (up to the regularisation); disconnected particles carry no stress.", "quantifier": "every density and velocity gradient", "why_tests_cant": "Continuum.", "anchors": ["hydraxmpm/constitutive_laws/mu_i_rheology.py: MuI_LC._update_stress"]}
{"id": "C46", "title": "Drucker-Prager stress is admissible", "statement": "After an update the stress satisfies the yield condition (never outside the yield surface) for every trial stress.", "quantifier": "every prior stress, strain increment, parameters", "why_tests_cant": "Continuum of trial stresses including apex and dilatant parameters.", "anchors": ["hydraxmpm/constitutive_laws/druckerprager.py: DruckerPrager._update_stress"]}
{"id": "C47", "title": "Accumulated plastic strain never decreases", "statement": "The Drucker-Prager hardening variable eps_p_acc is non-decreasing over any history.", "quantifier": "every history", "why_tests_cant": "Arbitrary histories.", "anchors": ["hydraxmpm/constitutive_laws/druckerprager.py: DruckerPrager._update_stress"]}
{"id": "C48", "title": "Separated material carries no stress", "statement": "A Drucker-Prager, mu(I) or Cam-Clay point that is less dense than its reference state has zero stress after update.", "quantifier": "every state with separated density", "why_tests_cant": "All states.", "anchors": ["hydraxmpm/constitutive_laws/druckerprager.py", "hydraxmpm/constitutive_laws/mu_i_rheology.py", "hydraxmpm/constitutive_laws/modifiedcamclay.py"]}
{"id": "C49", "title": "Cam-Clay reference state is consistent", "statement": "create_state_from_ocr returns p, q, p_c inside or on the yield surface with p_c = OCR * p for isotropic states, and density consistent with the specific volume on the swelling line.", "quantifier": "every p, ocr, q", "why_tests_cant": "Continuum.", "anchors": ["hydraxmpm/constitutive_laws/modifiedcamclay.py: create_state_from_ocr"]}
{"id": "C50", "title": "Cam-Clay elastic step keeps the preconsolidation pressure", "statement": "If the trial stress is inside the yield surface the update keeps p_c and gives p = p_prev*exp(tr(deps)/kappa).", "quantifier": "every state and increment", "why_tests_cant": "Continuum.", "anchors": ["hydraxmpm/constitutive_laws/modifiedcamclay.py: _update_stress"]}
{"id": "C51", "title": "Removing accumulated shear keeps the volume", "statement": "remove_accumulated_shear replaces F by an isotropic tensor with the same determinant (so density is unchanged) in 2-D and 3-D.", "quantifier": "every F with positive determinant, dimension", "why_tests_cant": "Continuum.", "anchors": ["hydraxmpm/constitutive_laws/constitutive_law.py: remove_accumulated_shear"]}
{"id": "C52", "title": "Gravity accelerates everything equally", "statement": "Gravity on the grid adds mass*g to each node of the listed grids and nothing else; a stress-free body in free fall gains exactly g*dt in one step.", "quantifier": "every state, gravity vector, list of grids", "why_tests_cant": "All states and sums.", "anchors": ["hydraxmpm/forces/gravity.py: Gravity.apply_grid_forces"]}
{"id": "C53", "title": "Gravity on particles works", "statement": "Gravity with is_apply_on_grid=False adds mass*g to the particle forces of the listed bodies.", "quantifier": "every state with a non-empty body list", "why_tests_cant": "Statement over all states.", "anchors": ["hydraxmpm/forces/gravity.py: Gravity.apply_pre_p2g"]}
{"id": "C54", "title": "Damping only removes power", "statement": "For 0<=alpha<=1 Cundall damping changes each force component by at most alpha*|F|, never increases the power F.v, and leaves nodes at rest unchanged.", "quantifier": "every force, velocity, mass>=0, alpha in [0,1]", "why_tests_cant": "Continuum.", "anchors": ["hydraxmpm/forces/damping.py: Damping.apply_grid_forces"]}
{"id": "C55", "title": "SDF collider enforces non-penetration with Coulomb friction", "statement": "After the collider a node with distance <= 0 and mass above the cutoff has non-negative normal velocity relative to the wall, its tangential velocity change is at most friction times its normal change, tangential velocity is never reversed, and nodes outside are untouched.", "quantifier": "every node velocity, unit normal, wall velocity, friction>=0", "why_tests_cant": "Continuum.", "anchors": ["hydraxmpm/forces/sdf_collider.py: apply_frictional_contact, apply_grid_moments, _collide_node"]}
{"id": "C56", "title": "Collider friction argument is used", "statement": "The friction passed to add_sdf_collider scales the wall friction, and gap changes the contact distance.", "quantifier": "every friction and gap value", "why_tests_cant": "All parameter values.", "anchors": ["hydraxmpm/common/builder.py: add_sdf_collider", "hydraxmpm/forces/sdf_collider.py"]}
{"id": "C57", "title": "Grid contact can be used with the solver", "statement": "A simulation with a body contact added by add_body_contact performs steps.", "quantifier": "every configuration containing a GridContact", "why_tests_cant": "All configurations.", "anchors": ["hydraxmpm/forces/gridcontact.py: GridContact.apply_grid_moments", "hydraxmpm/solvers/usl.py: _integrate_grid", "hydraxmpm/common/builder.py: add_body_contact"]}
{"id": "C58", "title": "Node contact conserves momentum and removes approach", "statement": "GridContact's node collision (soft bodies) conserves total momentum of the node pair up to the 1e-12 regularisation and leaves separating or distant nodes unchanged.", "quantifier": "every pair of nodal states", "why_tests_cant": "Continuum.", "anchors": ["hydraxmpm/forces/gridcontact.py: _solve_node_collision"]}
{"id": "C59", "title": "Builder indices refer to the object added", "statement": "The index returned by each add_* call is the position of that object in the built state, and each force finds its own state at its f_idx.", "quantifier": "every sequence of builder calls", "why_tests_cant": "Arbitrary call sequences.", "anchors": ["hydraxmpm/common/builder.py: SimBuilder", "hydraxmpm/forces/gravity.py: f_idx"]}
{"id": "C60", "title": "A coupling is solved on the grid and law it names", "statement": "In a built solver each coupling's grid index and law index resolve to the grid and law the user passed to couple().", "quantifier": "every sequence of builder calls and every b_idx_list", "why_tests_cant": "Arbitrary call sequences.", "anchors": ["hydraxmpm/common/builder.py: set_solver", "hydraxmpm/solvers/usl.py: grid_domains[c.g_idx], constitutive_laws[c.c_idx]"]}
{"id": "C61", "title": "Builder rejects unknown schemes with a clear state", "statement": "set_solver with a scheme other than usl/usl_aflip raises and leaves the builder unchanged.", "quantifier": "every scheme string", "why_tests_cant": "All strings.", "anchors": ["hydraxmpm/common/builder.py: set_solver"]}
{"id": "C62", "title": "SDF objects can be added without a centre of mass", "statement": "add_sdf_object without center_of_mass takes the centre from the bounding box, for each SDF class.", "quantifier": "every SDF class", "why_tests_cant": "Statement over all classes and parameters.", "anchors": ["hydraxmpm/common/builder.py: add_sdf_object", "hydraxmpm/sdf/sdfobject.py: get_world_aabb"]}
{"id": "C63", "title": "Supplied law states are kept", "statement": "A law_state passed to add_constitutive_law is the state stored in the built simulation.", "quantifier": "every law and state", "why_tests_cant": "All laws.", "anchors": ["hydraxmpm/common/builder.py: add_constitutive_law"]}
{"id": "C64", "title": "Sphere and plane distances are exact", "statement": "SphereSDF and PlaneSDF return the Euclidean signed distance to their surface and are 1-Lipschitz (plane: up to the 1e-12 normalisation).", "quantifier": "every point, centre, radius, normal", "why_tests_cant": "Continuum.", "anchors": ["hydraxmpm/sdf/sdfcollection.py: SphereSDF, PlaneSDF"]}
{"id": "C65", "title": "Box, capsule, cylinder distances have the right sign", "statement": "The signed distance is negative exactly for points inside the solid.", "quantifier": "every point and size", "why_tests_cant": "Continuum; the error is 1e-6 wide.", "anchors": ["hydraxmpm/sdf/sdfcollection.py: BoxSDF, CapsuleSDF, CylinderSDF", "hydraxmpm/utils/math_helpers.py: safe_norm"]}
{"id": "C66", "title": "A composite SDF is the union with the friction of the nearest shape", "statement": "CompositeSDF's distance is negative iff some member's is, and its friction is that of a nearest member.", "quantifier": "every list of shapes and points", "why_tests_cant": "Arbitrary lists.", "anchors": ["hydraxmpm/sdf/sdfcollection.py: CompositeSDF"]}
{"id": "C67", "title": "DomainSDF is positive exactly inside the box", "statement": "DomainSDF distance is positive iff the point is strictly inside, its normal points inwards from the nearest wall, and friction is that wall's.", "quantifier": "every box, offset, point", "why_tests_cant": "Continuum.", "anchors": ["hydraxmpm/sdf/sdfcollection.py: DomainSDF"]}
{"id": "C68", "title": "SDF distances are invariant under rigid motion", "statement": "Moving an SDF (2-D rotation or unit quaternion plus translation) together with the query point leaves signed distance unchanged.", "quantifier": "every rigid motion and point", "why_tests_cant": "Continuum.", "anchors": ["hydraxmpm/sdf/sdfobject.py: transform_to_local", "hydraxmpm/utils/math_helpers.py: quaternion_rotate, rotation_2d"]}
{"id": "C69", "title": "SDF kinematics integrate constant motion", "statement": "After n updates at constant velocity the centre of mass is x0 + n dt v and the 2-D rotation theta0 + n dt w; in 3-D the rotation stays a unit quaternion.", "quantifier": "every n, velocity, dt", "why_tests_cant": "Induction over steps.", "anchors": ["hydraxmpm/sdf/sdfobject.py: update_kinematics", "hydraxmpm/utils/math_helpers.py: integrate_quaternion"]}
{"id": "C70", "title": "Hollow cylinder respects its height", "statement": "A 3-D HollowCylinderSDF of height h is outside for |y| > h/2.", "quantifier": "every point and size", "why_tests_cant": "Continuum.", "anchors": ["hydraxmpm/sdf/sdfcollection.py: HollowCylinderSDF"]}
{"id": "C71", "title": "Generated particles lie in the body", "statement": "generate_particles_in_sdf returns exactly the candidates with negative signed distance, in candidate order.", "quantifier": "every SDF, bounds, mode", "why_tests_cant": "All shapes and bounds.", "anchors": ["hydraxmpm/utils/generate_body.py: generate_particles_in_sdf"]}
{"id": "C72", "title": "Regular seeding gives ppc points per cell", "statement": "In mode 'regular' the candidates of each background cell lie in that cell, ceil(ppc^(1/dim))^dim of them.", "quantifier": "every cell size, ppc, bounds", "why_tests_cant": "All cell sizes; cell_size=1 hides the defect.", "anchors": ["hydraxmpm/utils/generate_body.py: generate_particles_in_sdf"]}
{"id": "C73", "title": "Every documented seeding mode works", "statement": "The default mode and the modes listed in the docstring of generate_particles_in_sdf return particles.", "quantifier": "every mode string", "why_tests_cant": "All modes.", "anchors": ["hydraxmpm/utils/generate_body.py: generate_particles_in_sdf"]}
{"id": "C74", "title": "Saved states are recovered by step number", "statement": "After any sequence of save_step calls (steps >= 0), load_simulation with step k returns the last state saved with step k; file names of different steps are different.", "quantifier": "every history of saves", "why_tests_cant": "Arbitrary histories and step sizes beyond five digits.", "anchors": ["hydraxmpm/common/sim_io.py: SimIO.save_step, load_simulation"]}
{"id": "C75", "title": "Re-opening a recorder keeps data when asked to", "statement": "SimIO(dir, overwrite=False) keeps all previously saved steps; with overwrite=True none remain.", "quantifier": "every history", "why_tests_cant": "Arbitrary histories.", "anchors": ["hydraxmpm/common/sim_io.py: SimIO.__init__"]}
{"id": "C76", "title": "Undrained triaxial test is isochoric", "statement": "In an undrained TriaxialTest the determinant of F and hence the volume is constant over any number of steps.", "quantifier": "every rate sequence and number of steps", "why_tests_cant": "Induction over steps.", "anchors": ["hydraxmpm/element_tests/triaxial_test.py: get_L_undrained", "hydraxmpm/element_tests/driver.py: step"]}
{"id": "C77", "title": "Triaxial snapshots are complete", "statement": "TriaxialTest.run returns one snapshot for every stride steps, for any num_steps and stride.", "quantifier": "every num_steps, stride", "why_tests_cant": "All pairs; only non-divisible ones fail.", "anchors": ["hydraxmpm/element_tests/triaxial_test.py: run"]}
{"id": "C78", "title": "Element driver honours its configuration", "statement": "ElementTestDriver(is_F_linear_approx=True) advances F by I - L dt.", "quantifier": "every state and L", "why_tests_cant": "All states.", "anchors": ["hydraxmpm/element_tests/driver.py: ElementTestDriver.step"]}
{"id": "C79", "title": "Void ratio, solid fraction and density conversions are inverse", "statement": "phi_to_e and e_to_phi are inverse on (0,1]; the void ratio from bulk density agrees with the solid fraction from density.", "quantifier": "every phi in (0,1], density", "why_tests_cant": "Continuum.", "anchors": ["hydraxmpm/utils/math_helpers.py: get_e_stack, get_phi_from_bulk_density, get_e_from_bulk_density"]}
{"id": "C80", "title": "Stress invariants and triaxial reconstruction", "statement": "Pressure and deviator split a stress uniquely, q>=0, and get_pressure/get_q_vm of reconstruct_stress_from_triaxial(p,q) return p and |q|.", "quantifier": "every stress, p, q", "why_tests_cant": "Continuum.", "anchors": ["hydraxmpm/utils/math_helpers.py: get_pressure, get_dev_stress, get_q_vm, reconstruct_stress_from_triaxial"]}
{"id": "C81", "title": "Objective stress increment keeps symmetry and trace", "statement": "The Jaumann increment of a symmetric tensor is symmetric with unchanged trace for every spin.", "quantifier": "every tensor, spin, dt", "why_tests_cant": "Continuum.", "anchors": ["hydraxmpm/utils/math_helpers.py: get_jaumann_increment, get_spin_tensor"]}
{"id": "C82", "title": "Robust inverses are inverses", "statement": "inv_2x2_robust and inv_3x3 return the inverse up to the stated 1e-20 regularisation for every invertible matrix.", "quantifier": "every matrix with non-zero determinant", "why_tests_cant": "Continuum.", "anchors": ["hydraxmpm/utils/math_helpers.py: inv_3x3_robust, inv_2x2_robust, safe_inv_scalar_clamped"]}
{"id": "C83", "title": "Every exported math helper can be called", "statement": "get_dev_strain_stack and get_scalar_shear_strain return for every well-shaped input.", "quantifier": "every input", "why_tests_cant": "A non-terminating call is a claim over all inputs.", "anchors": ["hydraxmpm/utils/math_helpers.py: get_dev_strain_stack, get_scalar_shear_strain"]}
{"id": "C84", "title": "Time step estimate is available for every law", "statement": "get_dt_crit returns a positive finite time step for each constitutive law with positive stiffness and density.", "quantifier": "every law and state", "why_tests_cant": "All states.", "anchors": ["hydraxmpm/constitutive_laws/linearelastic.py", "hydraxmpm/constitutive_laws/newtonfluid.py", "hydraxmpm/constitutive_laws/mu_i_rheology.py", "hydraxmpm/constitutive_laws/druckerprager.py", "hydraxmpm/constitutive_laws/modifiedcamclay.py"]}
{"id": "C85", "title": "Node count of a created grid", "statement": "GridDomain.create on a box that is m whole cells long with padding p makes m+2p+1 nodes per axis, so the grid reaches end+p*cell_size.", "quantifier": "every box, cell size and padding", "why_tests_cant": "Rounding makes it fail only for special cell sizes such as 0.1.", "anchors": ["hydraxmpm/grid/grid.py: GridDomain.create"]}
{"id": "C86", "title": "Gravity gives the body its weight times dt", "statement": "In a step whose only load is gravity on the grid (any listed order of forces containing one gravity), the momentum of the bodies of a grid grows by exactly total mass * g * dt.", "quantifier": "every particle set, kernel, both solvers, every g and dt", "why_tests_cant": "Sums over arbitrarily many particles and nodes.", "anchors": ["hydraxmpm/solvers/usl.py: _step", "hydraxmpm/forces/gravity.py: Gravity.apply_grid_forces"]}
{"id": "C87", "title": "Internal forces are work-conjugate and exert no torque", "statement": "The first moment of the nodal internal forces equals the sum of volume times stress over the particles (discrete virial identity), so a symmetric stress exerts no net torque on the grid.", "quantifier": "every particle set, stress, grid, kernel (linear off grid lines)", "why_tests_cant": "Sums over arbitrarily many particles and nodes.", "anchors": ["hydraxmpm/solvers/usl.py: _p2g", "hydraxmpm/shapefunctions/quadratic.py"]}
{"id": "C88", "title": "Damping on particles damps", "statement": "Damping with is_apply_on_grid=False changes the forces used by the step.", "quantifier": "every state with non-zero stress or force", "why_tests_cant": "Statement over all states.", "anchors": ["hydraxmpm/forces/damping.py: Damping.apply_pre_p2g", "hydraxmpm/solvers/usl.py: _reset_material_points"]}
{"id": "C89", "title": "The surface velocity of a rigid object is that of its material point", "statement": "get_velocity at a world point equals the time derivative of the motion of the object's material point there (translation plus rotation about the centre of mass, in 2-D and 3-D).", "quantifier": "every state, spin and point", "why_tests_cant": "A derivative statement over all real states.", "anchors": ["hydraxmpm/sdf/sdfobject.py: SDFObjectBase.get_velocity"]}
{"id": "C90", "title": "The point cloud distance is a smooth union of balls", "statement": "MaterialPointCloudSDF is at most the smallest distance to the balls that carry the points' volumes and at least that minus ln(n)/k; a point inside a ball is inside the cloud.", "quantifier": "every cloud, sharpness above 1e-3, point", "why_tests_cant": "Sums over arbitrarily many points, transcendental functions.", "anchors": ["hydraxmpm/sdf/sdfcollection.py: MaterialPointCloudSDF.signed_distance"]}
{"id": "C91", "title": "A coupled rigid body can be simulated", "statement": "A rigid body added with add_material_points(is_rigid=True) and coupled to a grid can be part of a solver made by set_solver.", "quantifier": "every builder with a coupled rigid body, every selection containing it", "why_tests_cant": "Statement over all builder states.", "anchors": ["hydraxmpm/common/builder.py: couple, set_solver", "hydraxmpm/solvers/usl.py: constitutive_laws field"]}
{"id": "C92", "title": "Gravity can be given as a tuple", "statement": "add_gravity accepts the tuple its signature names, like the array, and a rejected call leaves the builder unchanged.", "quantifier": "every builder and vector", "why_tests_cant": "All builder states.", "anchors": ["hydraxmpm/common/builder.py: add_gravity", "hydraxmpm/forces/gravity.py: GravityState"]}
{"id": "C93", "title": "A recorder opened in order to load keeps the saved run", "statement": "After a run has been saved, opening the directory again the way the documentation's loading recipe does leaves the files in place, and load_simulation returns them.", "quantifier": "every directory, file system contents and run", "why_tests_cant": "Quantifies over every file system and history of operations.", "anchors": ["hydraxmpm/common/sim_io.py: SimIO.__init__, class docstring 48-56, load_simulation"]}
{"id": "C94", "title": "axial_strain_stack lists the strain of each snapshot", "statement": "The j-th entry of TriaxialTest.axial_strain_stack is the axial (logarithmic, compression positive) strain of the j-th snapshot returned by run.", "quantifier": "every test, rate and step sequence, snapshot index", "why_tests_cant": "All step sequences and indices.", "anchors": ["hydraxmpm/element_tests/triaxial_test.py: axial_strain_stack, run"]}
{"id": "C95", "title": "Stress and density returned by the driver belong together", "statement": "The stress returned by ElementTestDriver.step is the stress the law gives at the returned velocity gradient and density.", "quantifier": "every state, velocity gradient, time step", "why_tests_cant": "Real arithmetic over all states.", "anchors": ["hydraxmpm/element_tests/driver.py: ElementTestDriver.step"]}
{"id": "C96", "title": "A drained triaxial step holds the confinement", "statement": "In a drained step the controlled stress (lateral stress, or mean stress with is_p_constant) comes as close to the confining value as wanted when num_newton_iters is large enough.", "quantifier": "every test, law, state, step", "why_tests_cant": "Convergence of an iteration; a limit over the number of iterations.", "anchors": ["hydraxmpm/element_tests/triaxial_test.py: get_L_drained"]}
{"id": "C97", "title": "The deformation gradient accumulates the motion", "statement": "For every material point of an active coupling, a step replaces the deformation gradient F by (I - dt L) F where L is the velocity gradient the step stores (compression positive), on 3-D grids and, with the out-of-plane normal entry held at 1, on 2-D grids, for both solvers. Over a run of any length F is therefore the ordered product of the increments applied to the initial F. A body asked to keep a separate stored deformation gradient (F_store_stack) has it updated by the same increments.", "quantifier": "all solvers without shear reset, all states, all couplings, points and numbers of steps", "why_tests_cant": "Unit tests compare F after one or two steps of one configuration; the order of the product and the increment for arbitrary nodal velocities and run lengths need a proof.", "anchors": ["hydraxmpm/solvers/usl.py:700-729", "hydraxmpm/solvers/usl_asflip.py:486-547", "hydraxmpm/material_points/material_points.py:136-151"]}
{"id": "C98", "title": "Observers in uniform motion see the same step", "statement": "Adding one constant velocity v (in the plane for 2-D grids) to every material point changes a step with gravity-only forces as follows: the step still succeeds, stresses, volumes, F, L, law states and affine states are identical, positions differ by dt v and velocities by v (for ASFLIP: up to the speed limiter, which acts on the shifted velocity).", "quantifier": "all solvers whose forces are grid gravity, all states with interior points and supported nodes, all v", "why_tests_cant": "Galilean invariance relates two runs for every velocity; tests run one frame.", "anchors": ["hydraxmpm/solvers/usl.py:440-729", "hydraxmpm/solvers/usl_asflip.py:200-547"]}
{"id": "C99", "title": "Each body's law is evaluated once per step with its own history", "statement": "In one step the constitutive law of every active coupling is evaluated exactly once, on the stress the body had before the step and the velocity gradient, volume and mass the step leaves, with the law state stored at that coupling's index; the stress and the law state it returns are the ones stored afterwards, bodies and law states no active coupling names are untouched, and over a run an elastic point's stress is that of the accumulated velocity gradient. This holds however many grids a body is coupled to.", "quantifier": "all solvers, states, couplings, laws and run lengths", "why_tests_cant": "Tests look at one material on one grid; a lost write-back or a doubled update changes no shape and raises nothing.", "anchors": ["hydraxmpm/solvers/usl.py:739-772", "hydraxmpm/solvers/usl.py:579-729"]}
{"id": "C100", "title": "Particles are moved by the documented velocity", "statement": "USL moves every particle by dt times its gathered updated grid velocity. USL-ASFLIP adds alpha beta (v_p - gathered old grid velocity), with beta = beta_min for particles compressed below their initial volume and beta_max for the others, and with no correction for particles within one cell of a wall.", "quantifier": "all steps, bodies, particles, parameters and walls", "why_tests_cant": "The switch depends on the deformation of every particle and on all walls; tests check positions of a few free particles.", "anchors": ["hydraxmpm/solvers/usl_asflip.py:490-530", "hydraxmpm/solvers/usl_asflip.py:340-345", "hydraxmpm/solvers/usl.py:660-700"]}
{"id": "C101", "title": "A tabulated signed distance returns the table", "statement": "GridSDF reads a table of distances sampled at equal spacing between min and max: at every sample's position (scaled by scale) the signed distance is scale times that sample minus thickness; between samples it stays within scale times one spacing per axis of the tabulated function, and nowhere leaves the range of the scaled table.", "quantifier": "all tables of any resolution, boxes, scales, thicknesses and positions", "why_tests_cant": "The indexing, normalisation and interpolation are checked on a few points of one file at best; an off-by-one in the resolution or a swapped axis only shows for non-cubic tables.", "anchors": ["hydraxmpm/sdf/gridsdf.py:60-82"]}
{"id": "C102", "title": "A tabulated body has sound slopes, normals and extent", "statement": "The distance of a GridSDF changes by no more than the distance moved, the gradient its normal is made of is the derivative of the distance inside every cell, the normal has unit length, and every point inside the thickened body lies within get_local_bounds.", "quantifier": "all tables of any resolution that sample a 1-Lipschitz function, all positions inside and outside the table", "why_tests_cant": "Requires all positions, including outside the voxel box, where clamping replaces the distance by a constant.", "anchors": ["hydraxmpm/sdf/gridsdf.py:44-82", "hydraxmpm/sdf/sdfobject.py:133-156"]}
{"id": "C103", "title": "Contact between two bodies creates no energy", "statement": "When two nodes of soft bodies collide, the kinetic energy of the pair does not grow (up to the 1e-12 regularisation) and the normal velocities become equal, as the comment 'We want v_n_new = 0 (Slide)' says.", "quantifier": "every pair of nodal masses, momenta, normals and distances", "why_tests_cant": "A continuum of mass ratios; needs an inequality over all momenta.", "anchors": ["hydraxmpm/forces/gridcontact.py: _solve_node_collision 179-230"]}
{"id": "C104", "title": "Cam-Clay volume follows the compression and swelling lines", "statement": "Along any history of connected increments the specific volume given by (p, p_c) through the swelling line changes exactly by the accumulated volumetric strain (plastic and elastic parts together), and a closed strain cycle returns it.", "quantifier": "all histories of velocity gradients and time steps of any length", "why_tests_cant": "Histories of any length, real-valued.", "anchors": ["hydraxmpm/constitutive_laws/modifiedcamclay.py: 375-562", "hydraxmpm/constitutive_laws/modifiedcamclay.py: get_v_sl"]}
{"id": "C105", "title": "A body at rest keeps the stress it was given", "statement": "With zero velocity gradient an update leaves the stress of an admissible state unchanged, for every law that stores stress or elastic strain.", "quantifier": "every body, state and time step", "why_tests_cant": "All stress states.", "anchors": ["hydraxmpm/constitutive_laws/linearelastic.py: update", "hydraxmpm/constitutive_laws/druckerprager.py: 75-207", "hydraxmpm/constitutive_laws/modifiedcamclay.py: update"]}
{"id": "C106", "title": "Every way of making a Cam-Clay state gives a consistent, usable state", "statement": "A requested shear stress inside the yield surface is kept; create_state_from_stress puts (p,q) on the yield surface with the density of the swelling line; create_state_from_density inverts the swelling line; and the states can be stepped.", "quantifier": "all pressures, shears, densities and parameters", "why_tests_cant": "Continuum of inputs.", "anchors": ["hydraxmpm/constitutive_laws/modifiedcamclay.py: 197-343"]}
{"id": "C107", "title": "No law prefers a direction", "statement": "Turning the axes (positions, velocity gradient, stress and the law's memory) and then updating is the same as updating and then turning, for all five laws, error cases included.", "quantifier": "every orthogonal matrix, body, law state and time step", "why_tests_cant": "Three-parameter group acting on all states.", "anchors": ["hydraxmpm/constitutive_laws/linearelastic.py: update", "hydraxmpm/constitutive_laws/newtonfluid.py: update", "hydraxmpm/constitutive_laws/mu_i_rheology.py: update", "hydraxmpm/constitutive_laws/druckerprager.py: update", "hydraxmpm/constitutive_laws/modifiedcamclay.py: update"]}
{"id": "C108", "title": "A spinning body carries its stress along", "statement": "If the velocity field near a point is a rigid rotation, the stress of the point is carried by that rotation (to first order in the angle) whichever solver and law are used.", "quantifier": "every rotation, stress and law parameter", "why_tests_cant": "Combines gradients from the grid with the law; sign conventions of two modules.", "anchors": ["hydraxmpm/solvers/usl.py: _g2p", "hydraxmpm/solvers/usl_asflip.py: _g2p", "hydraxmpm/constitutive_laws/modifiedcamclay.py: 375-420", "hydraxmpm/constitutive_laws/druckerprager.py: 118-140"]}
{"id": "C109", "title": "Drucker-Prager stress is a function of the stored elastic strain", "statement": "After every update the stress is p0 I + K tr(e) I + 2 G dev(e) of the stored elastic strain e, and a point without strain carries no more stress than it was left with.", "quantifier": "every body, history and branch of the return mapping", "why_tests_cant": "All branches of the return mapping.", "anchors": ["hydraxmpm/constitutive_laws/druckerprager.py: 118-207"]}
{"id": "C110", "title": "Fluids dissipate", "statement": "The power of the shear stress on the deformation rate is never negative for the Newtonian and mu(I) laws, and positive for a shearing mu(I) material in contact.", "quantifier": "every velocity gradient, density and time step", "why_tests_cant": "Sign over all velocity gradients.", "anchors": ["hydraxmpm/constitutive_laws/newtonfluid.py: update", "hydraxmpm/constitutive_laws/mu_i_rheology.py: update"]}
{"id": "C111", "title": "The transfers carry angular momentum", "statement": "P2G gives the grid the angular momentum of the particles about the origin (with AFLIP plus the moment of the stored affine matrices weighted with the second moment of the kernel); the internal forces of a lone body with symmetric stress leave that of the grid alone; and a force-free USL step with alpha=1 keeps that of the particles, while alpha<1 replaces the share 1-alpha by that of the gathered velocities.", "quantifier": "every number of bodies, particles and nodes, both schemes, all kernels, 2-D and 3-D, runs of any length", "why_tests_cant": "Sums over all particles and nodes; a bilinear identity, not a value.", "anchors": ["hydraxmpm/solvers/usl.py: _p2g", "hydraxmpm/solvers/usl.py: _g2p", "hydraxmpm/solvers/usl_asflip.py: _p2g", "hydraxmpm/shapefunctions/linear.py: kernel", "hydraxmpm/shapefunctions/quadratic.py: kernel", "hydraxmpm/shapefunctions/cubic.py: kernel"]}
{"id": "C112", "title": "No force, no new extreme velocity", "statement": "In a USL run without forces and stresses no velocity component of any particle leaves a range containing zero in which all components started; if no node is below the mass cutoff the range need not contain zero.", "quantifier": "every solver, cloud and number of steps", "why_tests_cant": "Maximum principle over all states.", "anchors": ["hydraxmpm/solvers/usl.py: _g2p 565-735", "hydraxmpm/solvers/usl.py: _integrate_grid"]}
{"id": "C113", "title": "No force, no new kinetic energy", "statement": "In a USL run without forces and stresses the kinetic energy of the bodies of a grid never grows, for every alpha in [0,1]; a cloud without stiffness that starts with room for n steps around every particle can be stepped n times, stays inside, and obeys this bound without any assumption on the states it visits.", "quantifier": "every solver, cloud, alpha and number of steps", "why_tests_cant": "Inequality over all states and runs of any length.", "anchors": ["hydraxmpm/solvers/usl.py: _g2p 565-735", "hydraxmpm/solvers/usl.py: _p2g", "hydraxmpm/constitutive_laws/linearelastic.py: update"]}
{"id": "C114", "title": "What makes a simulation runnable", "statement": "Whether a step goes through is decided by indices, kinds of states and array lengths alone: every coupling names an existing body and grid of the same dimension (with points, if there are obstacles), every body taking part has a law with a state of that law and one entry per point and, with AFLIP, affine matrices at its own number, every force names a registered state of its kind, grids and bodies that exist, and no contact force is present. These conditions are necessary and sufficient, and a simulation that meets them runs for any number of steps.", "quantifier": "every solver and state without single-point bodies, both schemes, all laws, forces and obstacles, any number of steps", "why_tests_cant": "Characterises failure over all configurations; a test shows one configuration runs.", "anchors": ["hydraxmpm/solvers/usl.py: update", "hydraxmpm/solvers/usl_asflip.py: update", "hydraxmpm/common/builder.py: SimBuilder"]}
{"id": "C115", "title": "What the builder accepts can be run", "statement": "A script that registers one grid, then bodies (points, law, coupling), obstacles, gravity and damping in any order and number, colliders, and a solver, is accepted call by call, gives one solver, and its simulation can be run for any number of steps.", "quantifier": "every script of that form: any numbers of bodies, obstacles and forces, all laws, kernels and parameters", "why_tests_cant": "Induction over scripts of any length; failure surfaces only when the built simulation is stepped.", "anchors": ["hydraxmpm/common/builder.py: add_*, couple, set_solver, build", "hydraxmpm/solvers/usl.py: update"]}
{"id": "C116", "title": "Star distances", "statement": "The signed distance of a star obstacle is the distance to the outline of the polygon with n tips and n valleys, negative strictly inside, zero on the outline and positive outside, turned and moved with the body; it repeats after one n-th of a turn and under mirroring.", "quantifier": "every number of tips n >= 2, positive radii, pose and point", "why_tests_cant": "The polar folding uses an arctangent and a rounding; its correctness at sector borders and for every n is a claim over a continuum.", "anchors": ["hydraxmpm/sdf/sdfcollection.py: StarSDF"]}
{"id": "C117", "title": "Logarithmic strain", "statement": "The Hencky strain does not depend on which singular value decomposition is returned, turns with the deformed body, ignores rotations of the reference, vanishes under rotations, takes principal stretches to minus their logarithms, and its trace is minus the logarithm of the volume ratio.", "quantifier": "every deformation gradient, rotation and decomposition; every run", "why_tests_cant": "Continuum of tensors and non-unique decompositions.", "anchors": ["hydraxmpm/utils/math_helpers.py: get_hencky_strain", "hydraxmpm/material_points/material_points.py: eps_stack, eps_v_stack"]}
{"id": "C118", "title": "Reported quantities", "statement": "Every scalar quantity a body of material points advertises is returned with one number per point and the stated meaning.", "quantifier": "every body", "why_tests_cant": "Holds or fails for every state; the failing ones return None without any error.", "anchors": ["hydraxmpm/material_points/material_points.py: density_stack, pressure_stack, KE_density_stack, KE_stack, q_stack, q_p_stack, eps_v_stack, shear_strain_rate_stack, shear_strain_stack, stored_shear_strain_stack"]}
{"id": "C119", "title": "Contact normals from mass gradients", "statement": "The contact normal estimated at a node is the spatial gradient of the nodal masses, at borders too, and resolving a collision with it removes the approach velocity.", "quantifier": "every grid, mass distribution and pair of momenta", "why_tests_cant": "Continuum of masses and all grid sizes; the scale error vanishes on unit cells, which tests favour.", "anchors": ["hydraxmpm/forces/gridcontact.py: _compute_mass_gradient, _solve_node_collision"]}
{"id": "C120", "title": "Initial stress of a bed under gravity", "statement": "The pressure and shear stress made from density, depth, slope and lateral ratio are those of a bed carrying its own weight, and the stress reconstructed from them is in equilibrium with gravity.", "quantifier": "every density, depth, gravity, slope and ratio", "why_tests_cant": "Continuum of parameters; the failures appear only as slow settling of a bed thought to be in equilibrium.", "anchors": ["hydraxmpm/utils/math_helpers.py: precondition_from_lithostatic, reconstruct_stress_from_triaxial"]}
{"id": "C121", "title": "Cam-Clay critical states", "statement": "A state at stress ratio M lies on the yield surface exactly where the surface is level, and its specific volume is the one given by the critical state line; plastic and elastic compressions through the pressure laws change the specific volume by exactly that strain.", "quantifier": "every positive pressure and parameter set with kappa < lambda", "why_tests_cant": "Relation between transcendental helper functions over a continuum.", "anchors": ["hydraxmpm/constitutive_laws/modifiedcamclay.py: yield_function, get_v_csl, get_v_sl, get_nc_pressure_mcc, get_pressure_mcc, get_qp_ys"]}
{"id": "C122", "title": "Inertial number", "statement": "The reported inertial number is shear rate times grain size over sqrt(p / grain density), is the one the mu(I) law uses, grows with the rate and falls with the pressure.", "quantifier": "every pressure, rate and grain", "why_tests_cant": "Continuum; the helper and the law contain separate copies of the formula.", "anchors": ["hydraxmpm/utils/math_helpers.py: get_inertial_number", "hydraxmpm/constitutive_laws/mu_i_rheology.py: _update_stress"]}
{"id": "C123", "title": "Small strains", "statement": "The small strain agrees with the logarithmic strain to first order, vanishes under rotations, and plastic and elastic strains add up to the total.", "quantifier": "every deformation gradient", "why_tests_cant": "Continuum of tensors.", "anchors": ["hydraxmpm/utils/math_helpers.py: get_small_strain, get_plastic_strain, get_hencky_strain"]}
{"id": "C124", "title": "States created from a body", "statement": "The state a law creates from a body can be stepped with that body, and at rest the body keeps its stress.", "quantifier": "every body and parameter set", "why_tests_cant": "All bodies; reference volume and current volume coincide in simple tests.", "anchors": ["hydraxmpm/constitutive_laws/mu_i_rheology.py: create_state, create_state_from_density, update", "hydraxmpm/constitutive_laws/linearelastic.py: create_state"]}
{"id": "C125", "title": "Volume and stored gradient when laws reset F", "statement": "Over a run a material point's volume is its initial volume times the product of det(I - dt L) of the steps, whichever laws reset F; a stored deformation gradient accumulates the motion although F itself is reset.", "quantifier": "every solver, world, number of steps and resetting law", "why_tests_cant": "Needs induction over runs and the cube or square root of a determinant on every step.", "anchors": ["hydraxmpm/constitutive_laws/constitutive_law.py: remove_accumulated_shear", "hydraxmpm/solvers/usl.py: g2p", "hydraxmpm/solvers/usl_asflip.py: g2p"]}
{"id": "C126", "title": "Angular momentum through AFLIP", "statement": "A step of the affine solver without blending (alpha = 0) hands back to the particles the angular momentum the grid held after the force update: moment of their velocities plus the spin of the matrices they store.", "quantifier": "every number of bodies and points, kernel, dimension and grid; nodal velocities affine or the linear kernel for the exact statement", "why_tests_cant": "The balance needs first and second moments of the kernels at every position and the sum over all particles; a test sees one position.", "anchors": ["hydraxmpm/solvers/usl_asflip.py: 1-30", "hydraxmpm/solvers/usl_asflip.py: p2g", "hydraxmpm/solvers/usl_asflip.py: g2p"]}
{"id": "C127", "title": "What each builder call registers", "statement": "A builder call registers what its arguments and documented defaults say: couple takes the kernel it is named, the last bodies, grids and laws unless told otherwise and refuses anything else; forces act on all grids and bodies, a collider on the last obstacle with the friction it is given; set_solver makes the named scheme, each keyword the last value given or its default, and refuses keywords the scheme lacks; build keeps its time, step and dt.", "quantifier": "every builder state, argument combination, keyword list and number type", "why_tests_cant": "The defaults depend on what was registered before, so the combinations of prior calls, omitted arguments and keyword lists are unbounded.", "anchors": ["hydraxmpm/common/builder.py: 185-235", "hydraxmpm/common/builder.py: 246-306", "hydraxmpm/common/builder.py: 308-414", "hydraxmpm/common/builder.py: 416-469"]}
{"id": "C128", "title": "What the visualisers are shown", "statement": "Logged particles can be read back: after any sequence of calls the file of a label and step holds the positions, radii of equal volume and property rows of the body logged there; a property's colours keep the order of its values; the drawn domain is the domain.", "quantifier": "every sequence of calls, number of points, property, label and step; every field; every domain", "why_tests_cant": "Files of different calls may collide, and the colour scale depends on all the values of a field at once.", "anchors": ["hydraxmpm/common/vtk_io.py: 38-130", "hydraxmpm/common/rerun.py: 160-300"]}
{"id": "C129", "title": "Obstacles are drawn where they are", "statement": "An obstacle of the domain thicker than the sample spacing is met by a sample, samples and drawn vertices share coordinates, every contour and triangle connects its own points, the surface can be saved with or without a step, and normals are normal to the surface.", "quantifier": "every domain, resolution, obstacle, number and length of contours", "why_tests_cant": "Whether a sample falls inside depends on the position of the obstacle relative to a lattice whose extent depends on the sign of the coordinates.", "anchors": ["hydraxmpm/common/vtk_io.py: 132-214", "hydraxmpm/common/rerun.py: 302-402"]}
{"id": "C130", "title": "Interpolation weights in floating point", "statement": "Computed in floating point, the weights of a point are between 0 and 1 and sum to one up to the rounding of the products that form them; along an axis the linear weights sum to one exactly.", "quantifier": "every binary precision and exponent range, every floating-point position whose nodes exist, both dimensions, every cloud", "why_tests_cant": "Rounding errors depend on all bits of the position; the negative weights appear at isolated positions.", "anchors": ["hydraxmpm/shapefunctions/linear.py: 40-60", "hydraxmpm/shapefunctions/quadratic.py: 40-75", "hydraxmpm/shapefunctions/cubic.py: basis", "hydraxmpm/shapefunctions/mapping.py: 171-200"]}
{"id": "C131", "title": "The clock in floating point", "statement": "The time after n steps is the start time plus n time steps, and every later time is reached if the run is long enough.", "quantifier": "every solver, state, floating-point time step and number of steps; every binary format", "why_tests_cant": "Needs millions of steps (2^24 in single precision) before the failure shows.", "anchors": ["hydraxmpm/solvers/usl.py: 118-190"]}
{"id": "C132", "title": "Nodal masses in floating point", "statement": "With the linear kernel no node receives a negative mass and the mass on the grid is the mass of the points up to a bound made of the unit roundoff, the number of points and the most crowded node.", "quantifier": "every solver, world, number of bodies, points and nodes; every binary format", "why_tests_cant": "Accumulated rounding over any number of additions.", "anchors": ["hydraxmpm/solvers/usl.py: 422-515"]}
{"id": "C133", "title": "Curves of the unified Cam-Clay law", "statement": "The friction grows with the inertial number from M to M_inf, the three forms of the yield condition describe one surface, the swelling line joins the critical state and normal compression lines, plastic strains are normal to the yield surface, and a point made from pressure, overconsolidation ratio and shear stress has them.", "quantifier": "all material constants, pressures, shear stresses and inertial numbers in range", "why_tests_cant": "Identities and limits over the reals; examples only sample them.", "anchors": ["projects/unified_elasto_plastic_inertial_mcc/UEPI_MCC.py: 15-167", "projects/unified_elasto_plastic_inertial_mcc/UEPI_MCC.py: 177-278"]}
{"id": "C134", "title": "Stress update of the unified Cam-Clay law", "statement": "A plastic step scales the trial deviator down, keeps pressure positive and ends on the inertial yield surface, and along every history pressure, hardening and inertial number move so that the specific volume they encode follows the compression.", "quantifier": "all material constants, stresses, states, velocity gradients, time steps, Jacobians and histories of any length", "why_tests_cant": "The Newton iteration is cut after 20 steps; only a proof covers all its outcomes.", "anchors": ["projects/unified_elasto_plastic_inertial_mcc/UEPI_MCC.py: 280-376", "projects/unified_elasto_plastic_inertial_mcc/UEPI_MCC.py: 378-476"]}
{"id": "C135", "title": "Bumpy floor of the collapse study", "statement": "The floor has the asked roughness and wavelengths, is flat under the column, fades in its bumps, is continuous, its value is the distance to it with the normal along its gradient, friction is positive, the box returned holds it, and it moves with its velocity.", "quantifier": "all numbers of harmonics, wavelength ranges, exponents, heights, phases, floor geometries and points", "why_tests_cant": "Roughness is a limit of integrals over unbounded lengths, and distances are over all points of a curve.", "anchors": ["projects/lorentz_collapse/floor.py: 10-64", "projects/lorentz_collapse/floor.py: 71-171"]}
{"id": "C136", "title": "Runs and trajectories of the collapse study", "statement": "A trajectory holds the states every output step under the floor and tilted gravity of its parameters, a run makes all steps and logs every output step under the same parameters, and parameters may be left out.", "quantifier": "all solvers, states, parameters, times and time steps, runs of any length", "why_tests_cant": "Claims about every state of runs of any length and about the steps left out at the end.", "anchors": ["projects/lorentz_collapse/collapse_setup.py: 202-238", "projects/lorentz_collapse/collapse_setup.py: 389-437"]}
{"id": "C137", "title": "Calibration of Cam-Clay parameters", "statement": "Every round keeps all chains in the parameter ranges, every vector in the ranges is a usable material starting on its compression line below the grain density, every test runs to its end, the loss is zero exactly when every measured point is on the simulated curve, and the reported parameters are the best chain with the reported loss.", "quantifier": "all optimizers, gradients, populations, numbers of rounds, confinements, procedures and data", "why_tests_cant": "The claims range over all trajectories of an arbitrary optimizer and all parameter vectors.", "anchors": ["projects/mcc_trx_inverse/mcc_trx_inverse.py: 63-178", "projects/mcc_trx_inverse/mcc_trx_inverse.py: 185-241"]}
{"id": "C138", "title": "Data set of random Cam-Clay samples", "statement": "Samples fill the parameter ranges one to one, every sample yields one stress, strain tensor and axial strain per step, undrained samples keep their volume, drained samples keep the lateral stress, and the stored axial strain is that of the stored tensor.", "quantifier": "all samples of the unit cube, confinements, procedures and steps", "why_tests_cant": "Claims over every sample and every step of the runs.", "anchors": ["projects/mcc_trx_inverse/mcc_trx_data_gen.py: 67-160", "projects/mcc_trx_inverse/mcc_trx_data_gen.py: 169-215"]}
{"id": "C139", "title": "Cam-Clay return map", "statement": "After a step that yields, the stress is on the new yield surface and the plastic strain is normal to it as far as the two residuals are zero; the matrix used by Newton's method is the derivative of the residuals; roots are exactly the points a step leaves in place; the result does not depend on the unit of stress; the stored elastic strain belongs to the stress.", "quantifier": "all parameters, stresses, velocity gradients, multipliers and preconsolidation pressures", "why_tests_cant": "Identities and derivatives over all states; the iteration is inside the law and its residuals are not returned.", "anchors": ["hydraxmpm/constitutive_laws/modifiedcamclay.py: 375-450", "hydraxmpm/constitutive_laws/modifiedcamclay.py: 454-562"]}
{"id": "C140", "title": "Normals of obstacles", "statement": "The normal an obstacle reports is the direction in which its signed distance grows, its length is that of the gradient over the same length plus 1e-12, and for the walls of a domain it is the unit vector away from the nearest wall; a point inside an obstacle always gets a direction.", "quantifier": "all shapes, unions of shapes, positions and orientations of the object, and all points off the edges of the shape", "why_tests_cant": "Derivatives over all points and directions; the normals come from automatic differentiation and from an override for domains.", "anchors": ["hydraxmpm/sdf/sdfobject.py: 146-156", "hydraxmpm/sdf/sdfcollection.py: 35-388", "hydraxmpm/sdf/sdfcollection.py: 471-495"]}
{"id": "C141", "title": "Obstacles known to the solver", "statement": "The ghost velocity of a particle comes from the nearest obstacle, does not move into it, keeps the tangential part and is never faster; the midpoint test is made half way to the node; the mask is one minus a product of two logistic factors; and without a collider the obstacles of a solver do not change the material at all.", "quantifier": "all solvers, couplings, laws, forces without an obstacle collider, obstacles, states and numbers of steps", "why_tests_cant": "Equality of two whole runs and closed forms of the mask for arbitrary geometry; the stored mask is a constant, so runs with and without it must be compared.", "anchors": ["hydraxmpm/solvers/usl.py: 245-313", "hydraxmpm/solvers/usl.py: 315-420", "hydraxmpm/solvers/usl.py: 613-656"]}
{"id": "C142", "title": "Stored snapshots", "statement": "What is read back from a store of snapshots is the state to half precision: order is kept, storing again changes nothing, stress comes back in kPa, no array is left out and the chunks cover it.", "quantifier": "all states, sets of points, shapes and numbers", "why_tests_cant": "Rounding of every real number and every state; overflow and underflow depend on the values of a run.", "anchors": ["projects/lorentz_collapse/save_data.py: 10-17", "projects/lorentz_collapse/save_data.py: 59-74", "projects/lorentz_collapse/save_data.py: 80-119"]}
{"id": "C143", "title": "Limits of the unified Cam-Clay law", "statement": "A steady state of the law is the rheology of the inertial number (isochoric flow, friction and specific volume functions of the inertial number alone), such states exist at every pressure and rate, and at vanishing rates a plastic step solves the equations of Modified Cam Clay.", "quantifier": "all material constants, stresses, states, velocity gradients and time steps; all pressures and isochoric rates; all sequences of time steps to the limit", "why_tests_cant": "Both limits quantify over all states and need a limit of the rates; a run shows one path towards one of them.", "anchors": ["projects/unified_elasto_plastic_inertial_mcc/UEPI_MCC.py: 280-376", "projects/unified_elasto_plastic_inertial_mcc/UEPI_MCC.py: 378-476", "projects/unified_elasto_plastic_inertial_mcc/sip_setup.py: 38-40", "projects/unified_elasto_plastic_inertial_mcc/result_trx.py: 232-247"]}
{"id": "C144", "title": "The place of a simulation does not matter", "statement": "Moving grids, points and obstacles by one vector moves every later state by that vector and changes nothing else: same velocities, stresses, law and solver states, and the same failures.", "quantifier": "all displacements, solvers, laws, forces, obstacles, states and numbers of steps (exact arithmetic)", "why_tests_cant": "A relation between two runs of any length; tests run one of them.", "anchors": ["hydraxmpm/solvers/usl.py: 113-189", "hydraxmpm/solvers/usl.py: 191-243", "hydraxmpm/solvers/usl.py: 583-729", "hydraxmpm/solvers/usl_asflip.py: 200-547", "hydraxmpm/sdf/sdfobject.py: 111-188"]}
{"id": "C145", "title": "Grid nodes beyond the material do not matter", "statement": "While every stencil lies inside the grid, extra nodes on any side (more padding, a larger domain on the same lattice) change nothing in the result: bodies, obstacles, internal variables and errors are the same. Hence moving bodies and obstacles by whole cells on an unmoved grid moves the step.", "quantifier": "all pairs of grids on one lattice, solvers, kernels, laws, forces, obstacles, states and numbers of steps (exact arithmetic)", "why_tests_cant": "A relation between two runs on grids of different sizes, for every pair of sizes.", "anchors": ["hydraxmpm/grid/grid.py: 40-105", "hydraxmpm/shapefunctions/mapping.py: 133-228", "hydraxmpm/solvers/usl.py: 113-189", "hydraxmpm/solvers/usl.py: 440-729", "hydraxmpm/solvers/usl_asflip.py: 200-547", "hydraxmpm/forces/sdf_collider.py: 133-237"]}
{"id": "C146", "title": "Points that leave the grid", "statement": "A point all of whose stencil nodes lie outside its grid takes no part any more: under USL it keeps its position in every later step and its velocity is multiplied by alpha, under AFLIP it drifts by dt alpha beta v and with dynamic blending stops at once, whatever the forces, laws, obstacles and other points do. The size of the domain should otherwise not change a run (refuted: no error is raised, the point silently stops).", "quantifier": "all solvers, states, forces, points beyond the reach of the kernel, numbers of steps", "why_tests_cant": "Needs every force and law at once, and runs of any length.", "anchors": ["hydraxmpm/shapefunctions/mapping.py: 162-228", "hydraxmpm/solvers/usl.py: 583-729", "hydraxmpm/solvers/usl_asflip.py: 310-547", "hydraxmpm/grid/grid.py: 40-76"]}
{"id": "C147", "title": "The two-sphere impact example", "statement": "create_circle makes, once each, exactly the lattice points inside the disc; two discs of the same radius are congruent and, if the diameter is a whole number of squares, centred on their centres; the script is accepted, starts with zero total momentum, never raises an error and keeps zero momentum while the points stay inside the grid; every point weighs what the density asked for gives its lattice square (refuted unless ppc is 4: the default ppc of create_circle halves the density).", "quantifier": "all centres, radii, cell sizes, points per cell, speeds, densities, elastic constants, numbers of steps (exact arithmetic)", "why_tests_cant": "Set membership for every radius and spacing, and runs of any length.", "anchors": ["projects/two_sphere_impact/two_sphere_impact.py: 20-100", "hydraxmpm/material_points/material_points.py: 195-215", "hydraxmpm/common/builder.py: 101-380"]}
{"id": "C148", "title": "The column collapse example", "statement": "The points are exactly the centres of the squares of side cell/ppc that fit into the column, shifted by two sides; the script is accepted by the builder, gives a column at rest with gravity and one wall object, and never raises an error; the friction coefficient makes the law yield exactly on the Mohr-Coulomb cone in triaxial extension; the column stands clear of the left wall and the floor exactly if ppc < 8/3; the column weighs rho times its area (refuted: ppc times that); the law agrees with Mohr-Coulomb in triaxial compression too (refuted: it yields earlier); the run makes total_time/dt steps (refuted in the arithmetic of Python: 199999 instead of 200000) and logs the states at the multiples of the output time (refuted: one step later, and never the initial state).", "quantifier": "all domain corners, column sizes, cell sizes, points per cell, densities, stiffnesses, friction angles, wall frictions, gravities and numbers of steps (exact arithmetic)", "why_tests_cant": "The example is an executable notebook without assertions; a test of it could look at one set of numbers and a few steps, not at the yield condition for all stress states or the mass for all spacings.", "anchors": ["projects/collapse/collapse.py: 13-140", "hydraxmpm/common/builder.py: 60-447", "hydraxmpm/constitutive_laws/druckerprager.py: 75-207"]}
{"id": "C149", "title": "The Cam-Clay triaxial example", "statement": "The script starts from one point under the confining pressure whose specific volume is on the drawn normal consolidation line exactly if the overconsolidation ratio is 1; on the logarithmic axes of the plot the dashed lines are the normal consolidation line and the critical state line at every pressure from 1 to 100 kPa, and states at the top of the yield surface lie on the latter; the line labelled swelling line is the swelling line (refuted: its left end is computed at 10 Pa and drawn at 1 kPa, so it is three times as steep).", "quantifier": "all parameters of the law with positive N, M, p_ref and kap < lam, all confining pressures in the range of the plot, ratios of at least 1, and all abscissae (exact arithmetic)", "why_tests_cant": "The script only saves a picture; a test could compare the two end points of a line, not every pressure and parameter set.", "anchors": ["projects/mcc_trx/mcc.py: 22-63, 106-145", "hydraxmpm/constitutive_laws/modifiedcamclay.py: 84-110, 198-257", "hydraxmpm/material_points/material_points.py: 195-215"]}
