#!/usr/bin/env python3
"""Source of properties.jsonl (run from /verif)."""
import json
P=[]
def p(id,title,statement,quantifier,why,anchors):
    P.append(dict(id=id,title=title,statement=statement,quantifier=quantifier,why_tests_cant=why,anchors=anchors))
MAP="hydraxmpm/shapefunctions/mapping.py"; USL="hydraxmpm/solvers/usl.py"; AF="hydraxmpm/solvers/usl_asflip.py"
LIN="hydraxmpm/shapefunctions/linear.py"; QUA="hydraxmpm/shapefunctions/quadratic.py"; CUB="hydraxmpm/shapefunctions/cubic.py"
GRID="hydraxmpm/grid/grid.py"; BLD="hydraxmpm/common/builder.py"; MP="hydraxmpm/material_points/material_points.py"
MH="hydraxmpm/utils/math_helpers.py"; COL="hydraxmpm/forces/sdf_collider.py"; GC="hydraxmpm/forces/gridcontact.py"
GRV="hydraxmpm/forces/gravity.py"; DMP="hydraxmpm/forces/damping.py"; SDF="hydraxmpm/sdf/sdfcollection.py"; SDO="hydraxmpm/sdf/sdfobject.py"
GEN="hydraxmpm/utils/generate_body.py"; IO="hydraxmpm/common/sim_io.py"; DRV="hydraxmpm/element_tests/driver.py"; TRX="hydraxmpm/element_tests/triaxial_test.py"
CL="hydraxmpm/constitutive_laws/constitutive_law.py"; LE="hydraxmpm/constitutive_laws/linearelastic.py"; NF="hydraxmpm/constitutive_laws/newtonfluid.py"
MUI="hydraxmpm/constitutive_laws/mu_i_rheology.py"; DP="hydraxmpm/constitutive_laws/druckerprager.py"; MCC="hydraxmpm/constitutive_laws/modifiedcamclay.py"
REAL="A test samples a few positions; the claim is over a continuum of real positions, all cell sizes and all grids."

p("C01","Shape weights form a partition of unity","For every material point whose whole stencil lies inside the grid, the weights `shape_vals` that ShapeFunctionMapping.compute returns for that point sum to exactly 1, for the linear, quadratic and cubic kernels in 2-D and 3-D.","every kernel, dimension 2/3, real position, origin, positive cell size and grid size with the stencil inside the grid",REAL,[MAP+": ShapeFunctionMapping.compute",LIN,QUA,CUB])
p("C02","Shape weights are non-negative and at most one","Every weight returned by ShapeFunctionMapping.compute lies in [0,1], for every material point, inside or outside the grid, so grid masses are never negative.","every kernel, dimension 2/3, real position and grid",REAL,[MAP+": ShapeFunctionMapping.compute",LIN,QUA,CUB])
p("C03","Shape gradients sum to zero","For every material point whose whole stencil is inside the grid the gradients `shape_grads` of that point sum to the zero vector, so a uniform field has zero gradient and internal forces are self-equilibrated.","every kernel, dimension 2/3, real position, cell size and grid with the stencil inside",REAL,[MAP+": ShapeFunctionMapping.compute",LIN,QUA,CUB])
p("C04","Shape weights reproduce position exactly","For every material point whose whole stencil is inside the grid, the weighted average of the stencil node positions equals the particle position (equivalently the weighted rel_dist is zero).","every kernel, dimension 2/3, real position, cell size and grid with the stencil inside",REAL,[MAP+": ShapeFunctionMapping.compute",LIN,QUA,CUB])
p("C05","Shape gradients reproduce linear fields","For every material point whose whole stencil is inside the grid, the sum over the stencil of node position (component a) times weight gradient (component b) is 1 if a=b and 0 otherwise, so velocity gradients of affine grid fields are exact.","every kernel, dimension 2/3, real position, cell size and grid with the stencil inside",REAL+" The failure at particles sitting exactly on a node line (linear kernel) is a measure-zero set sampling will miss.",[MAP+": ShapeFunctionMapping.compute",LIN+": _linear_shapefunction",QUA,CUB])
p("C06","Returned gradient is the derivative of the returned weight","`shape_grads` is the partial derivative of `shape_vals` with respect to the particle position along every axis, for every node of the stencil.","every kernel, node offset, axis and real relative position where the weight is differentiable","Numerical differentiation at sample points cannot establish a derivative identity on every spline piece and at every knot.",[LIN,QUA,CUB])
p("C07","Interaction indices are always in range","For any positions, including far outside the domain, every node hash returned by compute is a valid node index of the grid, every point id a valid point index, and each (point, stencil slot) pair occurs exactly once, in row-major order.","every number of points, position, grid size with at least one node per axis","Index safety must hold for every position and size; JAX silently clamps or drops out-of-range indices so a test sees no error.",[MAP+": ShapeFunctionMapping.compute"])
p("C08","Node hash, node position and relative distance agree","For a stencil node inside the grid, the node's entry in GridDomain.position_stack at its hash is the node whose offset from the particle is -rel_dist * cell_size, and different in-grid stencil slots of one particle have different hashes.","every position, grid and stencil slot","Requires the row-major numbering of two separately written functions to agree for every grid shape.",[MAP+": ShapeFunctionMapping.compute",GRID+": GridDomain.position_stack"])
p("C09","Nodes outside the grid receive nothing","A stencil slot whose node is outside the grid has weight 0 and gradient 0, so the node its clipped hash aliases is not polluted.","every position, grid and stencil slot","Quantifies over all positions outside or near the border of all grids.",[MAP+": ShapeFunctionMapping.compute"])
p("C10","The stencil misses no node with non-zero weight","Every grid node whose kernel value at the particle is non-zero belongs to the particle's stencil.","every kernel, dimension, real position, integer node index",REAL,[MAP+": kernels, ShapeFunctionMapping.compute"])
p("C11","A padded grid contains the stencil of every point of the user's box","If a grid is created by GridDomain.create with padding at least 1 (linear) or 2 (quadratic, cubic), then in exact arithmetic every particle anywhere in [origin, end] has its whole stencil inside the grid, so C01-C05 apply to it.","every box, cell size, padding and position in the box","All box sizes, cell sizes and positions up to the boundary.",[GRID+": GridDomain.create",MAP+": ShapeFunctionMapping.compute"])
p("C12","Grid numbering is a bijection","num_cells is the length of position_stack and row-major unravelling/ravelling of in-range indices are inverse to each other, so each node is counted once.","every grid shape of any dimension","All grid shapes.",[GRID+": num_cells, position_mesh, position_stack"])
p("C13","scatter_to_grid conserves and averages","Without normalisation the sum over nodes of scatter_to_grid equals the sum over particles of mass times datum (stencils inside); with normalisation a constant datum is returned unchanged on each node whose weight exceeds the cutoff and 0 elsewhere.","every particle set, data, mass, interaction cache and cutoff","Sums over arbitrary numbers of particles and arbitrary overlap of stencils.",[MAP+": ShapeFunctionMapping.scatter_to_grid"])
p("C14","gather_from_grid interpolates grid data","gather_from_grid returns, for each particle, the weighted sum of the grid data over its stencil; a constant grid field is returned unchanged for interior particles.","every cache and grid data","The statement is about every cache; the shipped tests call an older API.",[MAP+": ShapeFunctionMapping.gather_from_grid, InteractionCache"])
p("C15","P2G conserves mass","After the particle-to-grid transfer of one solver step the total mass of each grid equals the total mass of the material points of all its non-rigid couplings whose stencils are inside the grid, including bodies that share a grid.","every number of bodies, couplings, particles and positions with stencils inside","Arbitrary many bodies sharing grids; float tests only check one small case.",[USL+": USLSolver._p2g",AF+": USLAFLIP._p2g"])
p("C16","P2G conserves linear momentum","After particle-to-grid transfer the total momentum of each grid equals the sum of m v over its coupled material points; for USLAFLIP the affine term adds nothing to the total.","every number of bodies, particles, velocities and affine matrices with stencils inside","Arbitrary sums and arbitrary affine matrices.",[USL+": USLSolver._p2g",AF+": USLAFLIP._p2g"])
p("C17","Internal forces are self-equilibrated","With no external forces the nodal forces produced by P2G sum to zero for any stress state.","every particle set, stress, volume with stencils inside","All stress states and positions.",[USL+": USLSolver._p2g"])
p("C18","Nodal forces of all bodies on a grid are superposed","If several bodies are coupled to the same grid the nodal force after P2G is the sum of every body's contribution, as for mass and momentum.","every set of couplings sharing a grid","Needs a statement over all numbers and orders of couplings; a single-body test cannot see it.",[USL+": USLSolver._p2g",AF+": USLAFLIP._p2g"])
p("C19","A step changes total momentum by exactly impulse","For one body with interior stencils and all touched nodes above the mass cutoff, the total particle momentum after a USL step equals the momentum before plus dt times the total nodal force, for every alpha.","every particle set, alpha, dt, nodal force","Sums over arbitrary particles and nodes for a continuum of alpha.",[USL+": USLSolver._p2g, _integrate_grid, _g2p"])
p("C20","Uniform motion is preserved","A stress-free body in uniform translation with no forces keeps its velocity, moves by v*dt, and keeps deformation gradient and volume, for both solvers.","every particle set, uniform velocity, dt, alpha, kernel with interior stencils above the mass cutoff","All particle configurations; sampled checks only see round-off.",[USL+": USLSolver.__call__",AF+": USLAFLIP._g2p"])
p("C21","alpha blends FLIP and PIC as documented","alpha = 0 gives the pure FLIP velocity update and alpha = 1 the pure PIC update (class docstrings of USLSolver and USLAFLIP).","every particle and grid state","The docstring is a claim for every state.",[USL+": USLSolver docstring, _g2p",AF+": USLAFLIP docstring, _g2p"])
p("C22","Step bookkeeping over any number of steps","After n successful solver calls step has grown by n, time by n*dt, dt is unchanged, the numbers of bodies and of points per body are unchanged, and every particle keeps its mass and initial volume.","every solver configuration, state and number of steps","Induction over arbitrary histories and all library laws and forces.",[USL+": USLSolver.__call__",AF])
p("C23","Rigid bodies are not modified by the solver","Material points of a rigid body (skip_mpm_logic) are returned unchanged by a solver step, whatever the other bodies do.","every configuration and state","All configurations and histories.",[USL+": _reset_material_points, _g2p, _constitutive_update",BLD+": couple"])
p("C24","Two-dimensional runs stay in plane strain","In 2-D, after any number of steps F_stack keeps F[2,2]=1 and zero out-of-plane off-diagonals and L_stack has zero third row and column.","every 2-D state, number of steps, both solvers","Inductive invariant over histories.",[USL+": _g2p",AF+": _g2p",MAP+": compute"])
p("C25","Volume follows the deformation gradient","After G2P every particle has volume = det(F) * initial volume, so mass density is mass/(det F * V0).","every state and solver","All deformation histories.",[USL+": _g2p",AF+": _g2p"])
p("C26","L is the velocity gradient (compression positive)","If the nodal velocities are an affine field v(x)=Ax+b then each interior particle receives L = -A (quadratic and cubic kernels) and F is advanced by (I + A dt)F.","every affine field, particle, kernel, both solvers","A symmetric test field cannot distinguish a matrix from its transpose.",[USL+": _g2p (einsum ij,ik->ijk)",AF+": _g2p"])
p("C27","User-supplied particle forces act","External forces stored in MaterialPointState.force_stack (documented as external force vectors) contribute to the grid forces of the step.","every force stack","Claim over all states and configurations.",[USL+": _reset_material_points, _p2g",MP+": force_stack"])
p("C28","SDF connectivity correction blocks interactions through walls","When an SDF object lies between a particle and a node the CPIC-style correction removes (or damps) that interaction.","every SDF set, particle and node","Universal over geometry.",[USL+": _sdf_correction_connectivity"])
p("C29","A step keeps every SDF state","The number of SDF states in the world is the same after a step as before, and each state moves with its own logic, also when the solver was given a subset of the SDFs.","every builder selection of SDFs","All subsets.",[USL+": _kinematic_update",BLD+": set_solver"])
p("C30","Each coupling uses its own shape functions","Two couplings of the same body and grid with different shape functions each transfer with their own weights.","every list of couplings","All coupling lists.",[USL+": _compute_connectivity"])
p("C31","Any body can be stepped repeatedly","If a body is accepted by one solver step then the resulting state is accepted by the next one, for every number of particles including a single particle.","every particle count and number of steps","Shape errors appear only for particular counts (1) and only at the second step.",[USL+": _g2p (squeeze), _p2g",AF+": _g2p"])
p("C32","Scatter order is irrelevant","Permuting the particles of a body (or the order in which scatter-add contributions are applied, which JAX leaves unspecified on GPU) does not change the grid mass, momentum or force in exact arithmetic, and permutes the particle results.","every permutation and particle set","All permutations/schedules.",[USL+": _p2g, _g2p"])
p("C33","Weights are translation invariant","Translating particles and grid origin by the same vector leaves hashes, weights, gradients and rel_dist unchanged; translating the particles by a whole number of cells shifts node indices by that number and leaves weights unchanged.","every translation, position, kernel","Continuum of translations.",[MAP+": compute"])
p("C34","AFLIP reproduces affine velocity fields","If all particles carry velocity Ax+b and affine matrix -A, then after USLAFLIP P2G every touched node has velocity A x_node + b, and G2P returns affine matrix -A and velocity Ax+b (quadratic/cubic kernels).","every affine field, particle set","Continuum of fields and configurations.",[AF+": _p2g, _g2p"])
p("C35","CFL limiting bounds the motion per step","After a USLAFLIP step no particle speed exceeds cfl_limit*cell_size/dt and no particle moves more than cfl_limit*cell_size in the step.","every state","All states; the worst case needs adversarial velocities.",[AF+": _g2p (CFL clamping, position update)"])
p("C36","Dynamic alpha stays between 0 and alpha","The effective FLIP fraction used by USLAFLIP lies in [0, alpha], is 0 for support ratio at most alpha_support_min and alpha for ratio at least alpha_support_max.","every support ratio and parameter choice","All parameters.",[AF+": _g2p"])
p("C37","Affine state belongs to its body","With several bodies, the affine matrices a body's P2G reads are those its own previous G2P wrote.","every order of couplings and bodies","All coupling orders; one-body tests cannot see it.",[AF+": _p2g (s_idx), _g2p (p_idx)",BLD+": couple, set_solver"])
p("C38","The classic APIC option works","USLAFLIP with use_mls_update=False performs the step with the documented Dp inverse.","every state with an active coupling","Statement about all states.",[AF+": _g2p (c.shapefunction)"])
p("C39","Material point creation defaults","MaterialPointState.create gives every point the volume cell_size^dim / points_per_cell and mass = volume*density when they are not supplied, honouring the documented keyword points_per_cell.","every position stack, dimension and keyword choice","All dimensions and keyword combinations.",[MP+": MaterialPointState.create"])
p("C40","Density and kinetic energy observables","For positive masses and volumes density_stack is positive and within relative 1e-16/volume of mass/volume; KE_stack is non-negative and zero only at rest.","every positive mass and volume, velocity","Continuum.",[MP+": density_stack, KE_stack"])
p("C41","Linear elasticity is linear, isotropic and path independent","The LinearElasticLaw stress increment is linear in the strain increment, keeps symmetry, changes pressure by K*tr and deviator by 2G*dev, and a sequence of increments gives the stress of the summed increment.","every sequence of velocity gradients, E, nu","Arbitrary length histories.",[LE+": LinearElasticLaw"])
p("C42","Elastic moduli are consistent and positive","K, G and lambda derived from E and nu satisfy K = lambda + 2G/3, E = 9KG/(3K+G), and are positive for E>0, 0<nu<1/2.","every E>0 and nu in (-1,1/2)","Continuum.",[LE+": get_bulk_modulus, get_shear_modulus, get_lame_modulus",DP+": __init__"])
p("C43","A compressed Newtonian fluid is under positive pressure","NewtonFluid follows the library's compression-positive convention: after an update with density at least the rest density the reported pressure_stack is non-negative, with value K((rho/rho0)^beta-1).","every density, velocity gradient, K>0, beta>=1","Continuum; the sign convention is only visible when composed with the solver.",[NF+": _update_stress",MP+": pressure_stack",MH+": get_pressure"])
p("C44","Newtonian EOS and state creation are inverse","create_state_from_density followed by an update at rest reproduces the stress it reported, and create_state builds a usable state.","every density, K, beta","Continuum.",[NF+": create_state_from_density, create_state"])
p("C45","mu(I) stress obeys the friction law","For a connected particle MuI_LC returns pressure p>=0 and shear stress sqrt(J2) = mu(I)*p with mu between mu_s and mu_d (up to the regularisation); disconnected particles carry no stress.","every density and velocity gradient","Continuum.",[MUI+": MuI_LC._update_stress"])
p("C46","Drucker-Prager stress is admissible","After an update the stress satisfies the yield condition (never outside the yield surface) for every trial stress.","every prior stress, strain increment, parameters","Continuum of trial stresses including apex and dilatant parameters.",[DP+": DruckerPrager._update_stress"])
p("C47","Accumulated plastic strain never decreases","The Drucker-Prager hardening variable eps_p_acc is non-decreasing over any history.","every history","Arbitrary histories.",[DP+": DruckerPrager._update_stress"])
p("C48","Separated material carries no stress","A Drucker-Prager, mu(I) or Cam-Clay point that is less dense than its reference state has zero stress after update.","every state with separated density","All states.",[DP,MUI,MCC])
p("C49","Cam-Clay reference state is consistent","create_state_from_ocr returns p, q, p_c inside or on the yield surface with p_c = OCR * p for isotropic states, and density consistent with the specific volume on the swelling line.","every p, ocr, q","Continuum.",[MCC+": create_state_from_ocr"])
p("C50","Cam-Clay elastic step keeps the preconsolidation pressure","If the trial stress is inside the yield surface the update keeps p_c and gives p = p_prev*exp(tr(deps)/kappa).","every state and increment","Continuum.",[MCC+": _update_stress"])
p("C51","Removing accumulated shear keeps the volume","remove_accumulated_shear replaces F by an isotropic tensor with the same determinant (so density is unchanged) in 2-D and 3-D.","every F with positive determinant, dimension","Continuum.",[CL+": remove_accumulated_shear"])
p("C52","Gravity accelerates everything equally","Gravity on the grid adds mass*g to each node of the listed grids and nothing else; a stress-free body in free fall gains exactly g*dt in one step.","every state, gravity vector, list of grids","All states and sums.",[GRV+": Gravity.apply_grid_forces"])
p("C53","Gravity on particles works","Gravity with is_apply_on_grid=False adds mass*g to the particle forces of the listed bodies.","every state with a non-empty body list","Statement over all states.",[GRV+": Gravity.apply_pre_p2g"])
p("C54","Damping only removes power","For 0<=alpha<=1 Cundall damping changes each force component by at most alpha*|F|, never increases the power F.v, and leaves nodes at rest unchanged.","every force, velocity, mass>=0, alpha in [0,1]","Continuum.",[DMP+": Damping.apply_grid_forces"])
p("C55","SDF collider enforces non-penetration with Coulomb friction","After the collider a node with distance <= 0 and mass above the cutoff has non-negative normal velocity relative to the wall, its tangential velocity change is at most friction times its normal change, tangential velocity is never reversed, and nodes outside are untouched.","every node velocity, unit normal, wall velocity, friction>=0","Continuum.",[COL+": apply_frictional_contact, apply_grid_moments, _collide_node"])
p("C56","Collider friction argument is used","The friction passed to add_sdf_collider scales the wall friction, and gap changes the contact distance.","every friction and gap value","All parameter values.",[BLD+": add_sdf_collider",COL])
p("C57","Grid contact can be used with the solver","A simulation with a body contact added by add_body_contact performs steps.","every configuration containing a GridContact","All configurations.",[GC+": GridContact.apply_grid_moments",USL+": _integrate_grid",BLD+": add_body_contact"])
p("C58","Node contact conserves momentum and removes approach","GridContact's node collision (soft bodies) conserves total momentum of the node pair up to the 1e-12 regularisation and leaves separating or distant nodes unchanged.","every pair of nodal states","Continuum.",[GC+": _solve_node_collision"])
p("C59","Builder indices refer to the object added","The index returned by each add_* call is the position of that object in the built state, and each force finds its own state at its f_idx.","every sequence of builder calls","Arbitrary call sequences.",[BLD+": SimBuilder",GRV+": f_idx"])
p("C60","A coupling is solved on the grid and law it names","In a built solver each coupling's grid index and law index resolve to the grid and law the user passed to couple().","every sequence of builder calls and every b_idx_list","Arbitrary call sequences.",[BLD+": set_solver",USL+": grid_domains[c.g_idx], constitutive_laws[c.c_idx]"])
p("C61","Builder rejects unknown schemes with a clear state","set_solver with a scheme other than usl/usl_aflip raises and leaves the builder unchanged.","every scheme string","All strings.",[BLD+": set_solver"])
p("C62","SDF objects can be added without a centre of mass","add_sdf_object without center_of_mass takes the centre from the bounding box, for each SDF class.","every SDF class","Statement over all classes and parameters.",[BLD+": add_sdf_object",SDO+": get_world_aabb"])
p("C63","Supplied law states are kept","A law_state passed to add_constitutive_law is the state stored in the built simulation.","every law and state","All laws.",[BLD+": add_constitutive_law"])
p("C64","Sphere and plane distances are exact","SphereSDF and PlaneSDF return the Euclidean signed distance to their surface and are 1-Lipschitz (plane: up to the 1e-12 normalisation).","every point, centre, radius, normal","Continuum.",[SDF+": SphereSDF, PlaneSDF"])
p("C65","Box, capsule, cylinder distances have the right sign","The signed distance is negative exactly for points inside the solid.","every point and size","Continuum; the error is 1e-6 wide.",[SDF+": BoxSDF, CapsuleSDF, CylinderSDF",MH+": safe_norm"])
p("C66","A composite SDF is the union with the friction of the nearest shape","CompositeSDF's distance is negative iff some member's is, and its friction is that of a nearest member.","every list of shapes and points","Arbitrary lists.",[SDF+": CompositeSDF"])
p("C67","DomainSDF is positive exactly inside the box","DomainSDF distance is positive iff the point is strictly inside, its normal points inwards from the nearest wall, and friction is that wall's.","every box, offset, point","Continuum.",[SDF+": DomainSDF"])
p("C68","SDF distances are invariant under rigid motion","Moving an SDF (2-D rotation or unit quaternion plus translation) together with the query point leaves signed distance unchanged.","every rigid motion and point","Continuum.",[SDO+": transform_to_local",MH+": quaternion_rotate, rotation_2d"])
p("C69","SDF kinematics integrate constant motion","After n updates at constant velocity the centre of mass is x0 + n dt v and the 2-D rotation theta0 + n dt w; in 3-D the rotation stays a unit quaternion.","every n, velocity, dt","Induction over steps.",[SDO+": update_kinematics",MH+": integrate_quaternion"])
p("C70","Hollow cylinder respects its height","A 3-D HollowCylinderSDF of height h is outside for |y| > h/2.","every point and size","Continuum.",[SDF+": HollowCylinderSDF"])
p("C71","Generated particles lie in the body","generate_particles_in_sdf returns exactly the candidates with negative signed distance, in candidate order.","every SDF, bounds, mode","All shapes and bounds.",[GEN+": generate_particles_in_sdf"])
p("C72","Regular seeding gives ppc points per cell","In mode 'regular' the candidates of each background cell lie in that cell, ceil(ppc^(1/dim))^dim of them.","every cell size, ppc, bounds","All cell sizes; cell_size=1 hides the defect.",[GEN+": generate_particles_in_sdf"])
p("C73","Every documented seeding mode works","The default mode and the modes listed in the docstring of generate_particles_in_sdf return particles.","every mode string","All modes.",[GEN+": generate_particles_in_sdf"])
p("C74","Saved states are recovered by step number","After any sequence of save_step calls (steps >= 0), load_simulation with step k returns the last state saved with step k; file names of different steps are different.","every history of saves","Arbitrary histories and step sizes beyond five digits.",[IO+": SimIO.save_step, load_simulation"])
p("C75","Re-opening a recorder keeps data when asked to","SimIO(dir, overwrite=False) keeps all previously saved steps; with overwrite=True none remain.","every history","Arbitrary histories.",[IO+": SimIO.__init__"])
p("C76","Undrained triaxial test is isochoric","In an undrained TriaxialTest the determinant of F and hence the volume is constant over any number of steps.","every rate sequence and number of steps","Induction over steps.",[TRX+": get_L_undrained",DRV+": step"])
p("C77","Triaxial snapshots are complete","TriaxialTest.run returns one snapshot for every stride steps, for any num_steps and stride.","every num_steps, stride","All pairs; only non-divisible ones fail.",[TRX+": run"])
p("C78","Element driver honours its configuration","ElementTestDriver(is_F_linear_approx=True) advances F by I - L dt.","every state and L","All states.",[DRV+": ElementTestDriver.step"])
p("C79","Void ratio, solid fraction and density conversions are inverse","phi_to_e and e_to_phi are inverse on (0,1]; the void ratio from bulk density agrees with the solid fraction from density.","every phi in (0,1], density","Continuum.",[MH+": get_e_stack, get_phi_from_bulk_density, get_e_from_bulk_density"])
p("C80","Stress invariants and triaxial reconstruction","Pressure and deviator split a stress uniquely, q>=0, and get_pressure/get_q_vm of reconstruct_stress_from_triaxial(p,q) return p and |q|.","every stress, p, q","Continuum.",[MH+": get_pressure, get_dev_stress, get_q_vm, reconstruct_stress_from_triaxial"])
p("C81","Objective stress increment keeps symmetry and trace","The Jaumann increment of a symmetric tensor is symmetric with unchanged trace for every spin.","every tensor, spin, dt","Continuum.",[MH+": get_jaumann_increment, get_spin_tensor"])
p("C82","Robust inverses are inverses","inv_2x2_robust and inv_3x3 return the inverse up to the stated 1e-20 regularisation for every invertible matrix.","every matrix with non-zero determinant","Continuum.",[MH+": inv_3x3_robust, inv_2x2_robust, safe_inv_scalar_clamped"])
p("C83","Every exported math helper can be called","get_dev_strain_stack and get_scalar_shear_strain return for every well-shaped input.","every input","A non-terminating call is a claim over all inputs.",[MH+": get_dev_strain_stack, get_scalar_shear_strain"])
p("C84","Time step estimate is available for every law","get_dt_crit returns a positive finite time step for each constitutive law with positive stiffness and density.","every law and state","All states.",[LE,NF,MUI,DP,MCC])
p("C85","Node count of a created grid","GridDomain.create on a box that is m whole cells long with padding p makes m+2p+1 nodes per axis, so the grid reaches end+p*cell_size.","every box, cell size and padding","Rounding makes it fail only for special cell sizes such as 0.1.",[GRID+": GridDomain.create"])
p("C86","Gravity gives the body its weight times dt","In a step whose only load is gravity on the grid (any listed order of forces containing one gravity), the momentum of the bodies of a grid grows by exactly total mass * g * dt.","every particle set, kernel, both solvers, every g and dt","Sums over arbitrarily many particles and nodes.",[USL+": _step",GRV+": Gravity.apply_grid_forces"])
p("C87","Internal forces are work-conjugate and exert no torque","The first moment of the nodal internal forces equals the sum of volume times stress over the particles (discrete virial identity), so a symmetric stress exerts no net torque on the grid.","every particle set, stress, grid, kernel (linear off grid lines)","Sums over arbitrarily many particles and nodes.",[USL+": _p2g",QUA])
p("C88","Damping on particles damps","Damping with is_apply_on_grid=False changes the forces used by the step.","every state with non-zero stress or force","Statement over all states.",[DMP+": Damping.apply_pre_p2g",USL+": _reset_material_points"])
p("C89","The surface velocity of a rigid object is that of its material point","get_velocity at a world point equals the time derivative of the motion of the object's material point there (translation plus rotation about the centre of mass, in 2-D and 3-D).","every state, spin and point","A derivative statement over all real states.",[SDO+": SDFObjectBase.get_velocity"])
p("C90","The point cloud distance is a smooth union of balls","MaterialPointCloudSDF is at most the smallest distance to the balls that carry the points' volumes and at least that minus ln(n)/k; a point inside a ball is inside the cloud.","every cloud, sharpness above 1e-3, point","Sums over arbitrarily many points, transcendental functions.",[SDF+": MaterialPointCloudSDF.signed_distance"])
p("C91","A coupled rigid body can be simulated","A rigid body added with add_material_points(is_rigid=True) and coupled to a grid can be part of a solver made by set_solver.","every builder with a coupled rigid body, every selection containing it","Statement over all builder states.",[BLD+": couple, set_solver",USL+": constitutive_laws field"])
p("C92","Gravity can be given as a tuple","add_gravity accepts the tuple its signature names, like the array, and a rejected call leaves the builder unchanged.","every builder and vector","All builder states.",[BLD+": add_gravity",GRV+": GravityState"])
p("C93","A recorder opened in order to load keeps the saved run","After a run has been saved, opening the directory again the way the documentation's loading recipe does leaves the files in place, and load_simulation returns them.","every directory, file system contents and run","Quantifies over every file system and history of operations.",[IO+": SimIO.__init__, class docstring 48-56, load_simulation"])
p("C94","axial_strain_stack lists the strain of each snapshot","The j-th entry of TriaxialTest.axial_strain_stack is the axial (logarithmic, compression positive) strain of the j-th snapshot returned by run.","every test, rate and step sequence, snapshot index","All step sequences and indices.",[TRX+": axial_strain_stack, run"])
p("C95","Stress and density returned by the driver belong together","The stress returned by ElementTestDriver.step is the stress the law gives at the returned velocity gradient and density.","every state, velocity gradient, time step","Real arithmetic over all states.",[DRV+": ElementTestDriver.step"])
p("C96","A drained triaxial step holds the confinement","In a drained step the controlled stress (lateral stress, or mean stress with is_p_constant) comes as close to the confining value as wanted when num_newton_iters is large enough.","every test, law, state, step","Convergence of an iteration; a limit over the number of iterations.",[TRX+": get_L_drained"])
p("C97", "The deformation gradient accumulates the motion",
  "For every material point of an active coupling, a step replaces the deformation gradient F by (I - dt L) F where L is the velocity gradient the step stores (compression positive), on 3-D grids and, with the out-of-plane normal entry held at 1, on 2-D grids, for both solvers. Over a run of any length F is therefore the ordered product of the increments applied to the initial F. A body asked to keep a separate stored deformation gradient (F_store_stack) has it updated by the same increments.",
  "all solvers without shear reset, all states, all couplings, points and numbers of steps",
  "Unit tests compare F after one or two steps of one configuration; the order of the product and the increment for arbitrary nodal velocities and run lengths need a proof.",
  [USL+":700-729", AF+":486-547", MP+":136-151"])
p("C98", "Observers in uniform motion see the same step",
  "Adding one constant velocity v (in the plane for 2-D grids) to every material point changes a step with gravity-only forces as follows: the step still succeeds, stresses, volumes, F, L, law states and affine states are identical, positions differ by dt v and velocities by v (for ASFLIP: up to the speed limiter, which acts on the shifted velocity).",
  "all solvers whose forces are grid gravity, all states with interior points and supported nodes, all v",
  "Galilean invariance relates two runs for every velocity; tests run one frame.",
  [USL+":440-729", AF+":200-547"])
p("C99", "Each body's law is evaluated once per step with its own history",
  "In one step the constitutive law of every active coupling is evaluated exactly once, on the stress the body had before the step and the velocity gradient, volume and mass the step leaves, with the law state stored at that coupling's index; the stress and the law state it returns are the ones stored afterwards, bodies and law states no active coupling names are untouched, and over a run an elastic point's stress is that of the accumulated velocity gradient. This holds however many grids a body is coupled to.",
  "all solvers, states, couplings, laws and run lengths",
  "Tests look at one material on one grid; a lost write-back or a doubled update changes no shape and raises nothing.",
  [USL+":739-772", USL+":579-729"])
p("C100", "Particles are moved by the documented velocity",
  "USL moves every particle by dt times its gathered updated grid velocity. USL-ASFLIP adds alpha beta (v_p - gathered old grid velocity), with beta = beta_min for particles compressed below their initial volume and beta_max for the others, and with no correction for particles within one cell of a wall.",
  "all steps, bodies, particles, parameters and walls",
  "The switch depends on the deformation of every particle and on all walls; tests check positions of a few free particles.",
  [AF+":490-530", AF+":340-345", USL+":660-700"])
GSDF="hydraxmpm/sdf/gridsdf.py"
p("C101", "A tabulated signed distance returns the table",
  "GridSDF reads a table of distances sampled at equal spacing between min and max: at every sample's position (scaled by scale) the signed distance is scale times that sample minus thickness; between samples it stays within scale times one spacing per axis of the tabulated function, and nowhere leaves the range of the scaled table.",
  "all tables of any resolution, boxes, scales, thicknesses and positions",
  "The indexing, normalisation and interpolation are checked on a few points of one file at best; an off-by-one in the resolution or a swapped axis only shows for non-cubic tables.",
  [GSDF+":60-82"])
p("C102", "A tabulated body has sound slopes, normals and extent",
  "The distance of a GridSDF changes by no more than the distance moved, the gradient its normal is made of is the derivative of the distance inside every cell, the normal has unit length, and every point inside the thickened body lies within get_local_bounds.",
  "all tables of any resolution that sample a 1-Lipschitz function, all positions inside and outside the table",
  "Requires all positions, including outside the voxel box, where clamping replaces the distance by a constant.",
  [GSDF+":44-82", SDO+":133-156"])
p("C103", "Contact between two bodies creates no energy", "When two nodes of soft bodies collide, the kinetic energy of the pair does not grow (up to the 1e-12 regularisation) and the normal velocities become equal, as the comment 'We want v_n_new = 0 (Slide)' says.", "every pair of nodal masses, momenta, normals and distances", "A continuum of mass ratios; needs an inequality over all momenta.", [GC+": _solve_node_collision 179-230"])
p("C104", "Cam-Clay volume follows the compression and swelling lines", "Along any history of connected increments the specific volume given by (p, p_c) through the swelling line changes exactly by the accumulated volumetric strain (plastic and elastic parts together), and a closed strain cycle returns it.", "all histories of velocity gradients and time steps of any length", "Histories of any length, real-valued.", [MCC+": 375-562", MCC+": get_v_sl"])
p("C105", "A body at rest keeps the stress it was given", "With zero velocity gradient an update leaves the stress of an admissible state unchanged, for every law that stores stress or elastic strain.", "every body, state and time step", "All stress states.", [LE+": update", DP+": 75-207", MCC+": update"])
p("C106", "Every way of making a Cam-Clay state gives a consistent, usable state", "A requested shear stress inside the yield surface is kept; create_state_from_stress puts (p,q) on the yield surface with the density of the swelling line; create_state_from_density inverts the swelling line; and the states can be stepped.", "all pressures, shears, densities and parameters", "Continuum of inputs.", [MCC+": 197-343"])
p("C107", "No law prefers a direction", "Turning the axes (positions, velocity gradient, stress and the law's memory) and then updating is the same as updating and then turning, for all five laws, error cases included.", "every orthogonal matrix, body, law state and time step", "Three-parameter group acting on all states.", [LE+": update", NF+": update", MUI+": update", DP+": update", MCC+": update"])
p("C108", "A spinning body carries its stress along", "If the velocity field near a point is a rigid rotation, the stress of the point is carried by that rotation (to first order in the angle) whichever solver and law are used.", "every rotation, stress and law parameter", "Combines gradients from the grid with the law; sign conventions of two modules.", [USL+": _g2p", AF+": _g2p", MCC+": 375-420", DP+": 118-140"])
p("C109", "Drucker-Prager stress is a function of the stored elastic strain", "After every update the stress is p0 I + K tr(e) I + 2 G dev(e) of the stored elastic strain e, and a point without strain carries no more stress than it was left with.", "every body, history and branch of the return mapping", "All branches of the return mapping.", [DP+": 118-207"])
p("C110", "Fluids dissipate", "The power of the shear stress on the deformation rate is never negative for the Newtonian and mu(I) laws, and positive for a shearing mu(I) material in contact.", "every velocity gradient, density and time step", "Sign over all velocity gradients.", [NF+": update", MUI+": update"])
p("C111", "The transfers carry angular momentum", "P2G gives the grid the angular momentum of the particles about the origin (with AFLIP plus the moment of the stored affine matrices weighted with the second moment of the kernel); the internal forces of a lone body with symmetric stress leave that of the grid alone; and a force-free USL step with alpha=1 keeps that of the particles, while alpha<1 replaces the share 1-alpha by that of the gathered velocities.", "every number of bodies, particles and nodes, both schemes, all kernels, 2-D and 3-D, runs of any length", "Sums over all particles and nodes; a bilinear identity, not a value.", [USL+": _p2g", USL+": _g2p", AF+": _p2g", LIN+": kernel", QUA+": kernel", CUB+": kernel"])
p("C112", "No force, no new extreme velocity", "In a USL run without forces and stresses no velocity component of any particle leaves a range containing zero in which all components started; if no node is below the mass cutoff the range need not contain zero.", "every solver, cloud and number of steps", "Maximum principle over all states.", [USL+": _g2p 565-735", USL+": _integrate_grid"])
p("C113", "No force, no new kinetic energy", "In a USL run without forces and stresses the kinetic energy of the bodies of a grid never grows, for every alpha in [0,1]; a cloud without stiffness that starts with room for n steps around every particle can be stepped n times, stays inside, and obeys this bound without any assumption on the states it visits.", "every solver, cloud, alpha and number of steps", "Inequality over all states and runs of any length.", [USL+": _g2p 565-735", USL+": _p2g", LE+": update"])
p("C114", "What makes a simulation runnable", "Whether a step goes through is decided by indices, kinds of states and array lengths alone: every coupling names an existing body and grid of the same dimension (with points, if there are obstacles), every body taking part has a law with a state of that law and one entry per point and, with AFLIP, affine matrices at its own number, every force names a registered state of its kind, grids and bodies that exist, and no contact force is present. These conditions are necessary and sufficient, and a simulation that meets them runs for any number of steps.", "every solver and state without single-point bodies, both schemes, all laws, forces and obstacles, any number of steps", "Characterises failure over all configurations; a test shows one configuration runs.", [USL+": update", AF+": update", BLD+": SimBuilder"])
p("C115", "What the builder accepts can be run", "A script that registers one grid, then bodies (points, law, coupling), obstacles, gravity and damping in any order and number, colliders, and a solver, is accepted call by call, gives one solver, and its simulation can be run for any number of steps.", "every script of that form: any numbers of bodies, obstacles and forces, all laws, kernels and parameters", "Induction over scripts of any length; failure surfaces only when the built simulation is stepped.", [BLD+": add_*, couple, set_solver, build", USL+": update"])
p("C116", "Star distances", "The signed distance of a star obstacle is the distance to the outline of the polygon with n tips and n valleys, negative strictly inside, zero on the outline and positive outside, turned and moved with the body; it repeats after one n-th of a turn and under mirroring.", "every number of tips n >= 2, positive radii, pose and point", "The polar folding uses an arctangent and a rounding; its correctness at sector borders and for every n is a claim over a continuum.", [SDF+": StarSDF"])
p("C117", "Logarithmic strain", "The Hencky strain does not depend on which singular value decomposition is returned, turns with the deformed body, ignores rotations of the reference, vanishes under rotations, takes principal stretches to minus their logarithms, and its trace is minus the logarithm of the volume ratio.", "every deformation gradient, rotation and decomposition; every run", "Continuum of tensors and non-unique decompositions.", [MH+": get_hencky_strain", MP+": eps_stack, eps_v_stack"])
p("C118", "Reported quantities", "Every scalar quantity a body of material points advertises is returned with one number per point and the stated meaning.", "every body", "Holds or fails for every state; the failing ones return None without any error.", [MP+": density_stack, pressure_stack, KE_density_stack, KE_stack, q_stack, q_p_stack, eps_v_stack, shear_strain_rate_stack, shear_strain_stack, stored_shear_strain_stack"])
p("C119", "Contact normals from mass gradients", "The contact normal estimated at a node is the spatial gradient of the nodal masses, at borders too, and resolving a collision with it removes the approach velocity.", "every grid, mass distribution and pair of momenta", "Continuum of masses and all grid sizes; the scale error vanishes on unit cells, which tests favour.", [GC+": _compute_mass_gradient, _solve_node_collision"])
p("C120", "Initial stress of a bed under gravity", "The pressure and shear stress made from density, depth, slope and lateral ratio are those of a bed carrying its own weight, and the stress reconstructed from them is in equilibrium with gravity.", "every density, depth, gravity, slope and ratio", "Continuum of parameters; the failures appear only as slow settling of a bed thought to be in equilibrium.", [MH+": precondition_from_lithostatic, reconstruct_stress_from_triaxial"])
p("C121", "Cam-Clay critical states", "A state at stress ratio M lies on the yield surface exactly where the surface is level, and its specific volume is the one given by the critical state line; plastic and elastic compressions through the pressure laws change the specific volume by exactly that strain.", "every positive pressure and parameter set with kappa < lambda", "Relation between transcendental helper functions over a continuum.", [MCC+": yield_function, get_v_csl, get_v_sl, get_nc_pressure_mcc, get_pressure_mcc, get_qp_ys"])
p("C122", "Inertial number", "The reported inertial number is shear rate times grain size over sqrt(p / grain density), is the one the mu(I) law uses, grows with the rate and falls with the pressure.", "every pressure, rate and grain", "Continuum; the helper and the law contain separate copies of the formula.", [MH+": get_inertial_number", MUI+": _update_stress"])
p("C123", "Small strains", "The small strain agrees with the logarithmic strain to first order, vanishes under rotations, and plastic and elastic strains add up to the total.", "every deformation gradient", "Continuum of tensors.", [MH+": get_small_strain, get_plastic_strain, get_hencky_strain"])
p("C124", "States created from a body", "The state a law creates from a body can be stepped with that body, and at rest the body keeps its stress.", "every body and parameter set", "All bodies; reference volume and current volume coincide in simple tests.", [MUI+": create_state, create_state_from_density, update", LE+": create_state"])
p("C125", "Volume and stored gradient when laws reset F", "Over a run a material point's volume is its initial volume times the product of det(I - dt L) of the steps, whichever laws reset F; a stored deformation gradient accumulates the motion although F itself is reset.", "every solver, world, number of steps and resetting law", "Needs induction over runs and the cube or square root of a determinant on every step.", [CL+": remove_accumulated_shear", USL+": g2p", AF+": g2p"])
p("C126", "Angular momentum through AFLIP", "A step of the affine solver without blending (alpha = 0) hands back to the particles the angular momentum the grid held after the force update: moment of their velocities plus the spin of the matrices they store.", "every number of bodies and points, kernel, dimension and grid; nodal velocities affine or the linear kernel for the exact statement", "The balance needs first and second moments of the kernels at every position and the sum over all particles; a test sees one position.", [AF+": 1-30", AF+": p2g", AF+": g2p"])
p("C127", "What each builder call registers", "A builder call registers what its arguments and documented defaults say: couple takes the kernel it is named, the last bodies, grids and laws unless told otherwise and refuses anything else; forces act on all grids and bodies, a collider on the last obstacle with the friction it is given; set_solver makes the named scheme, each keyword the last value given or its default, and refuses keywords the scheme lacks; build keeps its time, step and dt.", "every builder state, argument combination, keyword list and number type", "The defaults depend on what was registered before, so the combinations of prior calls, omitted arguments and keyword lists are unbounded.", [BLD+": 185-235", BLD+": 246-306", BLD+": 308-414", BLD+": 416-469"])
p("C128", "What the visualisers are shown", "Logged particles can be read back: after any sequence of calls the file of a label and step holds the positions, radii of equal volume and property rows of the body logged there; a property's colours keep the order of its values; the drawn domain is the domain.", "every sequence of calls, number of points, property, label and step; every field; every domain", "Files of different calls may collide, and the colour scale depends on all the values of a field at once.", ["hydraxmpm/common/vtk_io.py: 38-130", "hydraxmpm/common/rerun.py: 160-300"])
p("C129", "Obstacles are drawn where they are", "An obstacle of the domain thicker than the sample spacing is met by a sample, samples and drawn vertices share coordinates, every contour and triangle connects its own points, the surface can be saved with or without a step, and normals are normal to the surface.", "every domain, resolution, obstacle, number and length of contours", "Whether a sample falls inside depends on the position of the obstacle relative to a lattice whose extent depends on the sign of the coordinates.", ["hydraxmpm/common/vtk_io.py: 132-214", "hydraxmpm/common/rerun.py: 302-402"])
p("C130", "Interpolation weights in floating point", "Computed in floating point, the weights of a point are between 0 and 1 and sum to one up to the rounding of the products that form them; along an axis the linear weights sum to one exactly.", "every binary precision and exponent range, every floating-point position whose nodes exist, both dimensions, every cloud", "Rounding errors depend on all bits of the position; the negative weights appear at isolated positions.", [LIN+": 40-60", QUA+": 40-75", CUB+": basis", MAP+": 171-200"])
p("C131", "The clock in floating point", "The time after n steps is the start time plus n time steps, and every later time is reached if the run is long enough.", "every solver, state, floating-point time step and number of steps; every binary format", "Needs millions of steps (2^24 in single precision) before the failure shows.", [USL+": 118-190"])
p("C132", "Nodal masses in floating point", "With the linear kernel no node receives a negative mass and the mass on the grid is the mass of the points up to a bound made of the unit roundoff, the number of points and the most crowded node.", "every solver, world, number of bodies, points and nodes; every binary format", "Accumulated rounding over any number of additions.", [USL+": 422-515"])
p("C133", "Curves of the unified Cam-Clay law", "The friction grows with the inertial number from M to M_inf, the three forms of the yield condition describe one surface, the swelling line joins the critical state and normal compression lines, plastic strains are normal to the yield surface, and a point made from pressure, overconsolidation ratio and shear stress has them.", "all material constants, pressures, shear stresses and inertial numbers in range", "Identities and limits over the reals; examples only sample them.", ["projects/unified_elasto_plastic_inertial_mcc/UEPI_MCC.py: 15-167", "projects/unified_elasto_plastic_inertial_mcc/UEPI_MCC.py: 177-278"])
p("C134", "Stress update of the unified Cam-Clay law", "A plastic step scales the trial deviator down, keeps pressure positive and ends on the inertial yield surface, and along every history pressure, hardening and inertial number move so that the specific volume they encode follows the compression.", "all material constants, stresses, states, velocity gradients, time steps, Jacobians and histories of any length", "The Newton iteration is cut after 20 steps; only a proof covers all its outcomes.", ["projects/unified_elasto_plastic_inertial_mcc/UEPI_MCC.py: 280-376", "projects/unified_elasto_plastic_inertial_mcc/UEPI_MCC.py: 378-476"])
p("C135", "Bumpy floor of the collapse study", "The floor has the asked roughness and wavelengths, is flat under the column, fades in its bumps, is continuous, its value is the distance to it with the normal along its gradient, friction is positive, the box returned holds it, and it moves with its velocity.", "all numbers of harmonics, wavelength ranges, exponents, heights, phases, floor geometries and points", "Roughness is a limit of integrals over unbounded lengths, and distances are over all points of a curve.", ["projects/lorentz_collapse/floor.py: 10-64", "projects/lorentz_collapse/floor.py: 71-171"])
p("C136", "Runs and trajectories of the collapse study", "A trajectory holds the states every output step under the floor and tilted gravity of its parameters, a run makes all steps and logs every output step under the same parameters, and parameters may be left out.", "all solvers, states, parameters, times and time steps, runs of any length", "Claims about every state of runs of any length and about the steps left out at the end.", ["projects/lorentz_collapse/collapse_setup.py: 202-238", "projects/lorentz_collapse/collapse_setup.py: 389-437"])
p("C137", "Calibration of Cam-Clay parameters", "Every round keeps all chains in the parameter ranges, every vector in the ranges is a usable material starting on its compression line below the grain density, every test runs to its end, the loss is zero exactly when every measured point is on the simulated curve, and the reported parameters are the best chain with the reported loss.", "all optimizers, gradients, populations, numbers of rounds, confinements, procedures and data", "The claims range over all trajectories of an arbitrary optimizer and all parameter vectors.", ["projects/mcc_trx_inverse/mcc_trx_inverse.py: 63-178", "projects/mcc_trx_inverse/mcc_trx_inverse.py: 185-241"])
p("C138", "Data set of random Cam-Clay samples", "Samples fill the parameter ranges one to one, every sample yields one stress, strain tensor and axial strain per step, undrained samples keep their volume, drained samples keep the lateral stress, and the stored axial strain is that of the stored tensor.", "all samples of the unit cube, confinements, procedures and steps", "Claims over every sample and every step of the runs.", ["projects/mcc_trx_inverse/mcc_trx_data_gen.py: 67-160", "projects/mcc_trx_inverse/mcc_trx_data_gen.py: 169-215"])
p("C139", "Cam-Clay return map", "After a step that yields, the stress is on the new yield surface and the plastic strain is normal to it as far as the two residuals are zero; the matrix used by Newton's method is the derivative of the residuals; roots are exactly the points a step leaves in place; the result does not depend on the unit of stress; the stored elastic strain belongs to the stress.", "all parameters, stresses, velocity gradients, multipliers and preconsolidation pressures", "Identities and derivatives over all states; the iteration is inside the law and its residuals are not returned.", ["hydraxmpm/constitutive_laws/modifiedcamclay.py: 375-450", "hydraxmpm/constitutive_laws/modifiedcamclay.py: 454-562"])
p("C140", "Normals of obstacles", "The normal an obstacle reports is the direction in which its signed distance grows, its length is that of the gradient over the same length plus 1e-12, and for the walls of a domain it is the unit vector away from the nearest wall; a point inside an obstacle always gets a direction.", "all shapes, unions of shapes, positions and orientations of the object, and all points off the edges of the shape", "Derivatives over all points and directions; the normals come from automatic differentiation and from an override for domains.", ["hydraxmpm/sdf/sdfobject.py: 146-156", "hydraxmpm/sdf/sdfcollection.py: 35-388", "hydraxmpm/sdf/sdfcollection.py: 471-495"])
p("C141", "Obstacles known to the solver", "The ghost velocity of a particle comes from the nearest obstacle, does not move into it, keeps the tangential part and is never faster; the midpoint test is made half way to the node; the mask is one minus a product of two logistic factors; and without a collider the obstacles of a solver do not change the material at all.", "all solvers, couplings, laws, forces without an obstacle collider, obstacles, states and numbers of steps", "Equality of two whole runs and closed forms of the mask for arbitrary geometry; the stored mask is a constant, so runs with and without it must be compared.", ["hydraxmpm/solvers/usl.py: 245-313", "hydraxmpm/solvers/usl.py: 315-420", "hydraxmpm/solvers/usl.py: 613-656"])
p("C142", "Stored snapshots", "What is read back from a store of snapshots is the state to half precision: order is kept, storing again changes nothing, stress comes back in kPa, no array is left out and the chunks cover it.", "all states, sets of points, shapes and numbers", "Rounding of every real number and every state; overflow and underflow depend on the values of a run.", ["projects/lorentz_collapse/save_data.py: 10-17", "projects/lorentz_collapse/save_data.py: 59-74", "projects/lorentz_collapse/save_data.py: 80-119"])
p("C143", "Limits of the unified Cam-Clay law", "A steady state of the law is the rheology of the inertial number (isochoric flow, friction and specific volume functions of the inertial number alone), such states exist at every pressure and rate, and at vanishing rates a plastic step solves the equations of Modified Cam Clay.", "all material constants, stresses, states, velocity gradients and time steps; all pressures and isochoric rates; all sequences of time steps to the limit", "Both limits quantify over all states and need a limit of the rates; a run shows one path towards one of them.", ['projects/unified_elasto_plastic_inertial_mcc/UEPI_MCC.py: 280-376', 'projects/unified_elasto_plastic_inertial_mcc/UEPI_MCC.py: 378-476', 'projects/unified_elasto_plastic_inertial_mcc/sip_setup.py: 38-40', 'projects/unified_elasto_plastic_inertial_mcc/result_trx.py: 232-247'])
p("C144", "The place of a simulation does not matter", "Moving grids, points and obstacles by one vector moves every later state by that vector and changes nothing else: same velocities, stresses, law and solver states, and the same failures.", "all displacements, solvers, laws, forces, obstacles, states and numbers of steps (exact arithmetic)", "A relation between two runs of any length; tests run one of them.", ["hydraxmpm/solvers/usl.py: 113-189", "hydraxmpm/solvers/usl.py: 191-243", "hydraxmpm/solvers/usl.py: 583-729", "hydraxmpm/solvers/usl_asflip.py: 200-547", "hydraxmpm/sdf/sdfobject.py: 111-188"])
p("C145", "Grid nodes beyond the material do not matter", "While every stencil lies inside the grid, extra nodes on any side (more padding, a larger domain on the same lattice) change nothing in the result: bodies, obstacles, internal variables and errors are the same. Hence moving bodies and obstacles by whole cells on an unmoved grid moves the step.", "all pairs of grids on one lattice, solvers, kernels, laws, forces, obstacles, states and numbers of steps (exact arithmetic)", "A relation between two runs on grids of different sizes, for every pair of sizes.", ["hydraxmpm/grid/grid.py: 40-105", "hydraxmpm/shapefunctions/mapping.py: 133-228", "hydraxmpm/solvers/usl.py: 113-189", "hydraxmpm/solvers/usl.py: 440-729", "hydraxmpm/solvers/usl_asflip.py: 200-547", "hydraxmpm/forces/sdf_collider.py: 133-237"])
p("C146", "Points that leave the grid", "A point all of whose stencil nodes lie outside its grid takes no part any more: under USL it keeps its position in every later step and its velocity is multiplied by alpha, under AFLIP it drifts by dt alpha beta v and with dynamic blending stops at once, whatever the forces, laws, obstacles and other points do. The size of the domain should otherwise not change a run (refuted: no error is raised, the point silently stops).", "all solvers, states, forces, points beyond the reach of the kernel, numbers of steps", "Needs every force and law at once, and runs of any length.", [MAP+": 162-228", USL+": 583-729", AF+": 310-547", "hydraxmpm/grid/grid.py: 40-76"])
p("C147", "The two-sphere impact example", "create_circle makes, once each, exactly the lattice points inside the disc; two discs of the same radius are congruent and, if the diameter is a whole number of squares, centred on their centres; the script is accepted, starts with zero total momentum, never raises an error and keeps zero momentum while the points stay inside the grid; every point weighs what the density asked for gives its lattice square (refuted unless ppc is 4: the default ppc of create_circle halves the density).", "all centres, radii, cell sizes, points per cell, speeds, densities, elastic constants, numbers of steps (exact arithmetic)", "Set membership for every radius and spacing, and runs of any length.", ["projects/two_sphere_impact/two_sphere_impact.py: 20-100", "hydraxmpm/material_points/material_points.py: 195-215", "hydraxmpm/common/builder.py: 101-380"])
p("C148", "The column collapse example", "The points are exactly the centres of the squares of side cell/ppc that fit into the column, shifted by two sides; the script is accepted by the builder, gives a column at rest with gravity and one wall object, and never raises an error; the friction coefficient makes the law yield exactly on the Mohr-Coulomb cone in triaxial extension; the column stands clear of the left wall and the floor exactly if ppc < 8/3; the column weighs rho times its area (refuted: ppc times that); the law agrees with Mohr-Coulomb in triaxial compression too (refuted: it yields earlier); the run makes total_time/dt steps (refuted in the arithmetic of Python: 199999 instead of 200000) and logs the states at the multiples of the output time (refuted: one step later, and never the initial state).", "all domain corners, column sizes, cell sizes, points per cell, densities, stiffnesses, friction angles, wall frictions, gravities and numbers of steps (exact arithmetic)", "The example is an executable notebook without assertions; a test of it could look at one set of numbers and a few steps, not at the yield condition for all stress states or the mass for all spacings.", ["projects/collapse/collapse.py: 13-140", "hydraxmpm/common/builder.py: 60-447", "hydraxmpm/constitutive_laws/druckerprager.py: 75-207"])
p("C149", "The Cam-Clay triaxial example", "The script starts from one point under the confining pressure whose specific volume is on the drawn normal consolidation line exactly if the overconsolidation ratio is 1; on the logarithmic axes of the plot the dashed lines are the normal consolidation line and the critical state line at every pressure from 1 to 100 kPa, and states at the top of the yield surface lie on the latter; the line labelled swelling line is the swelling line (refuted: its left end is computed at 10 Pa and drawn at 1 kPa, so it is three times as steep).", "all parameters of the law with positive N, M, p_ref and kap < lam, all confining pressures in the range of the plot, ratios of at least 1, and all abscissae (exact arithmetic)", "The script only saves a picture; a test could compare the two end points of a line, not every pressure and parameter set.", ["projects/mcc_trx/mcc.py: 22-63, 106-145", "hydraxmpm/constitutive_laws/modifiedcamclay.py: 84-110, 198-257", "hydraxmpm/material_points/material_points.py: 195-215"])
if __name__=="__main__":
    with open("properties.jsonl","w") as f:
        for x in P: f.write(json.dumps(x)+"\n")
    print(len(P))
