{"id": "C01", "title": "inherit() copies exactly the selected rays", "statement": "bundle.inherit(selector, ...) returns a bundle in which each property is the value passed in when one was passed, and otherwise the selected entries of the source bundle's property, in selector order, with repetitions; properties unset in the source and not passed stay unset; an out-of-range index raises IndexError. The source bundle is not changed.", "quantifier": "every bundle (any number of rays, any subset of properties set, any extra properties), every index-array or boolean selector, every combination of overridden properties", "why_tests_cant": "the space of property subsets and selectors is unbounded", "anchors": ["tracer/ray_bundle.py: RayBundle.inherit, RayBundle._create_property"]}
{"id": "C02", "title": "Adding bundles keeps every ray, in order", "statement": "b1 + b2 has exactly the properties set in both operands; each is the concatenation of b1's rays followed by b2's rays; addition is associative.", "quantifier": "every pair/triple of bundles with any property subsets", "why_tests_cant": "unbounded sizes and property sets", "anchors": ["tracer/ray_bundle.py: RayBundle.__add__"]}
{"id": "C03", "title": "concatenate_rays is the ordered concatenation", "statement": "concatenate_rays(bundles) has exactly the properties set in the first bundle, each the in-order concatenation over all bundles; it fails with KeyError exactly when a later bundle lacks a property the first has set; the empty list gives a bundle with 0 rays and all five basic properties set to empty arrays.", "quantifier": "every list of bundles", "why_tests_cant": "unbounded list length", "anchors": ["tracer/ray_bundle.py: concatenate_rays, RayBundle.empty_bund"]}
{"id": "C04", "title": "delete_rays keeps exactly the complement", "statement": "bundle.delete_rays(sel) contains, in original order, exactly the rays whose index is not in sel, with all properties; together with inherit(sel) (sel duplicate free, in range) it partitions the bundle.", "quantifier": "every bundle and selector", "why_tests_cant": "unbounded", "anchors": ["tracer/ray_bundle.py: RayBundle.delete_rays"]}
{"id": "C05", "title": "Bundle arrays stay of equal length", "statement": "If all set properties of the inputs have as many entries as there are rays, the same is true of the results of any sequence of inherit (with consistent arguments), +, concatenate_rays and delete_rays.", "quantifier": "every history of bundle operations", "why_tests_cant": "needs induction over operation histories", "anchors": ["tracer/ray_bundle.py: RayBundle"]}
{"id": "C06", "title": "Property getters and setters with selectors", "statement": "After set_p(values, selector), get_p(selector) returns values (duplicate-free selector), get_p on any other index and every other property are unchanged; set_p(v) then get_p() returns v. Reading a property that is not set raises KeyError, and there are no accessors for a property that the bundle was not made with.", "quantifier": "every property, bundle, selector, value", "why_tests_cant": "unbounded", "anchors": ["tracer/ray_bundle.py: RayBundle._create_property (getter, setter)"]}
{"id": "C07", "title": "Each ray is given to the first surface it meets", "statement": "TracerEngine.intersect_ray marks surface s for ray r exactly when s was allowed to be tested for r, its reported parameter is finite, is not discarded as a self-intersection, and no other tested, non-discarded surface reports a smaller parameter for r.", "quantifier": "every list of surfaces (arbitrary register_incoming behaviour), every bundle, ownership and relevancy matrix", "why_tests_cant": "all surfaces, all parameter matrices", "anchors": ["tracer/tracer_engine.py: TracerEngine.intersect_ray"]}
{"id": "C08", "title": "A ray hits at most one surface", "statement": "In one iteration a ray is marked for at most one surface (so that its energy is not duplicated). Expected to fail when two surfaces report exactly the same parameter: the ray is then reflected by both.", "quantifier": "every parameter matrix", "why_tests_cant": "ties are measure-zero for random tests, but structural for shared edges", "anchors": ["tracer/tracer_engine.py: TracerEngine.intersect_ray lines 72-75"]}
{"id": "C09", "title": "The ray tree is geometrically consistent", "statement": "After ray_tracer(tree=True), for every level k>=1 and every ray in it, its parent index is a valid index of level k-1, the parent was still being traced (its energy exceeded min_energy, or it is a source ray), and the ray's vertex is parent.vertex + t*parent.direction for some t > 0 reported by a surface.", "quantifier": "every assembly built from library surfaces, every source bundle, every reps and min_energy; every level and ray", "why_tests_cant": "induction over the trace; index arithmetic over subsets of rays", "anchors": ["tracer/tracer_engine.py: TracerEngine.ray_tracer lines 119-181", "tracer/trace_tree.py: RayTree.append"]}
{"id": "C10", "title": "Discarded rays are recorded after the continuing ones", "statement": "Each recorded level (after the source) is the list of continuing rays (energy > min_energy), equal to the bundle traced next, followed by the discarded rays (energy <= min_energy), no ray lost or duplicated.", "quantifier": "every trace", "why_tests_cant": "induction over the trace", "anchors": ["tracer/tracer_engine.py: TracerEngine.ray_tracer lines 141-174"]}
{"id": "C11", "title": "Rays at or below min_energy are never traced on", "statement": "Every ray in the bundle used for the 2nd and later iterations, and in the returned arrays of a trace with at least one iteration, has energy strictly greater than min_energy.", "quantifier": "every trace", "why_tests_cant": "all executions", "anchors": ["tracer/tracer_engine.py: TracerEngine.ray_tracer lines 141-145"]}
{"id": "C12", "title": "The trace is bounded and stops when no rays are left", "statement": "ray_tracer performs at most reps iterations, records at most reps+1 bundles, only the source bundle and non-empty ones, and returns vertices and directions of the last continuing bundle; once no rays continue, it stops.", "quantifier": "every reps, every assembly", "why_tests_cant": "all executions", "anchors": ["tracer/tracer_engine.py: TracerEngine.ray_tracer"]}
{"id": "C13", "title": "Rays are traced independently of each other", "statement": "Which surface a ray hits depends only on that ray, not on which other rays share the bundle. Expected to fail: the self-intersection cut-off is 1e-6 if any parameter of the whole bundle is <= 1e-10 and 0 otherwise.", "quantifier": "every bundle and sub-bundle", "why_tests_cant": "relational property over pairs of runs", "anchors": ["tracer/tracer_engine.py: TracerEngine.intersect_ray lines 66-70"]}
{"id": "C14", "title": "Ownership and relevancy are honoured", "statement": "A surface is asked about a ray only if the ray is un-owned or owned by the surface's object, and the surface was declared relevant for that ray by the object that emitted it; and it is asked about all such rays.", "quantifier": "every trace, every own_rays / surfaces_for_next_iteration behaviour", "why_tests_cant": "all executions", "anchors": ["tracer/tracer_engine.py: TracerEngine.intersect_ray lines 50-60, ray_tracer lines 152-164, 180-181", "tracer/object.py: own_rays, surfaces_for_next_iteration"]}
{"id": "C15", "title": "Energy is never created", "statement": "If no ray has a tie, then for library optics with absorptivity in [0,1] the energies of the children of a ray sum to at most the ray's energy, so total recorded energy does not grow from one level to the next.", "quantifier": "every assembly of library surfaces, every bundle with non-negative energies and positive refractive indices", "why_tests_cant": "sum over unboundedly many rays and surfaces", "anchors": ["tracer/tracer_engine.py: ray_tracer", "tracer/optics_callables.py"]}
{"id": "C16", "title": "The positivity check never fires for library geometry", "statement": "intersect_ray raises ValueError exactly when some surface reports a parameter below -1e-16; library geometry managers never report a negative or NaN parameter (hemisphere and cut sphere excepted, see C35).", "quantifier": "every library geometry, frame and bundle", "why_tests_cant": "all inputs", "anchors": ["tracer/tracer_engine.py: intersect_ray lines 62-64", "tracer/quadric.py: QuadricGM.find_intersections", "tracer/flat_surface.py"]}
{"id": "C17", "title": "tree=False records the last generated bundle only", "statement": "ray_tracer(tree=False, reps>=1) leaves exactly one bundle in the tree: a permutation of the rays recorded by the last executed iteration; the returned arrays equal those of tree=True. With reps=0 it raises (record is unbound).", "quantifier": "every trace", "why_tests_cant": "relational property over two executions", "anchors": ["tracer/tracer_engine.py: ray_tracer lines 166-188"]}
{"id": "C18", "title": "Tracing is repeatable", "statement": "After ray_tracer every surface has dropped its per-trace data, so tracing the same bundle again through the same assembly (deterministic optics) gives the same tree and result.", "quantifier": "every assembly and bundle", "why_tests_cant": "all executions, hidden state", "anchors": ["tracer/tracer_engine.py: ray_tracer", "tracer/surface.py: Surface.done", "tracer/quadric.py: done", "tracer/flat_surface.py: done"]}
{"id": "C19", "title": "ordered_parents lists the parents of every level but the source's", "statement": "ordered_parents()[k] is the parents array of tree[k+1], for all k, and has num_bunds()-1 entries (0 for an empty tree).", "quantifier": "every tree", "why_tests_cant": "any length", "anchors": ["tracer/trace_tree.py: RayTree.ordered_parents, num_bunds, append, __getitem__"]}
{"id": "C20", "title": "ray_history follows parents back to the source", "statement": "ray_history(i, level) returns i, parent(i), parent(parent(i)), ... down to the source bundle. Expected to fail: the method lacks a self parameter and every call raises; with self restored the default level is off by one.", "quantifier": "every call", "why_tests_cant": "every argument", "anchors": ["tracer/trace_tree.py: RayTree.ray_history"]}
{"id": "C21", "title": "Infinite plane intersection", "statement": "For a rigid frame, FlatGeometryManager.find_intersections returns for each ray the unique t>=0 with vertex+t*direction on the frame's XY plane, and +inf when there is none or when |direction . plane normal| <= 1e-10.", "quantifier": "every rigid frame, every ray", "why_tests_cant": "continuum of inputs", "anchors": ["tracer/flat_surface.py: FlatGeometryManager.find_intersections"]}
{"id": "C22", "title": "Rectangular plate intersection", "statement": "RectPlateGM reports t exactly when the plane is hit at a point whose local coordinates satisfy |x|<=width/2 and |y|<=height/2 (edges included), and +inf otherwise; width or height <= 0 is rejected.", "quantifier": "every width,height>0, rigid frame, ray", "why_tests_cant": "continuum", "anchors": ["tracer/flat_surface.py: RectPlateGM"]}
{"id": "C23", "title": "Round plate intersection", "statement": "RoundPlateGM reports t exactly when the plane is hit at local x^2+y^2<=R^2, +inf otherwise; R<=0 is rejected.", "quantifier": "every R>0, frame, ray", "why_tests_cant": "continuum", "anchors": ["tracer/flat_surface.py: RoundPlateGM"]}
{"id": "C24", "title": "Triangle intersection", "statement": "TriangularFace reports t exactly when the plane is hit inside the closed triangle with vertices origin, v0, v1 of the local XY plane (for linearly independent v0, v1), +inf otherwise.", "quantifier": "every triangle, rigid frame, ray", "why_tests_cant": "continuum; barycentric algebra", "anchors": ["tracer/triangular_face.py: TriangularFace.find_intersections"]}
{"id": "C25", "title": "Sphere intersection", "statement": "SphericalGM reports the smallest t>0 at which the ray meets the sphere of its radius about its frame's origin, +inf if there is none; radius<=0 is rejected.", "quantifier": "every radius, frame, ray with |d|^2>1e-10", "why_tests_cant": "continuum", "anchors": ["tracer/sphere_surface.py: SphericalGM", "tracer/quadric.py: QuadricGM.find_intersections, _select_coords"]}
{"id": "C26", "title": "Hemisphere intersection", "statement": "For each ray of a bundle HemisphereGM reports the smallest t>0 at which the ray meets the sphere at local z<=0, +inf if none. The selected roots are read in row order, so this holds exactly for bundles in which no ray that meets the half sphere only from inside precedes a ray that meets it only from outside; in particular for every bundle of one ray. Expected to fail for other bundles.", "quantifier": "every radius, rigid frame, ray with |d|^2>1e-10", "why_tests_cant": "continuum", "anchors": ["tracer/sphere_surface.py: HemisphereGM._select_coords"]}
{"id": "C27", "title": "Cut sphere intersection", "statement": "For each ray of a bundle CutSphereGM reports the smallest t>0 at which the ray meets the sphere inside the bounding volume (a sphere, a plane's positive side, or none), +inf if none. With a bounding volume this holds exactly for bundles in which no ray that meets the part only from inside precedes a ray that meets it only from outside. With a BoundaryCylinder the call fails (ValueError) whenever the ray meets the sphere.", "quantifier": "every radius, rigid frame, bounding volume, ray with |d|^2>1e-10", "why_tests_cant": "continuum", "anchors": ["tracer/sphere_surface.py: CutSphereGM"]}
{"id": "C28", "title": "Infinite cylinder intersection", "statement": "InfiniteCylinder reports the smallest t>0 at which the ray meets the cylinder of the given diameter about the frame's Z axis, +inf if none, for rays parallel to the axis or with squared transverse direction component > 1e-10. For nearly parallel rays (0<A<=1e-10) this is expected to fail.", "quantifier": "every diameter, rigid frame, ray", "why_tests_cant": "continuum; ill-conditioned corner", "anchors": ["tracer/cylinder.py: InfiniteCylinder", "tracer/quadric.py: find_intersections line 73-77"]}
{"id": "C29", "title": "Finite cylinder intersection", "statement": "As C28, restricted to |local z|<=height/2.", "quantifier": "every diameter, height, rigid frame, ray", "why_tests_cant": "continuum", "anchors": ["tracer/cylinder.py: FiniteCylinder._select_coords"]}
{"id": "C30", "title": "Paraboloid intersection", "statement": "Paraboloid(a,b) reports the smallest t>0 at which the ray meets z=(x/a)^2+(y/b)^2 in the local frame, +inf if none, when the local direction is axial or its A coefficient exceeds 1e-10. For nearly axial rays (0<A<=1e-10) this is expected to fail.", "quantifier": "every a,b, rigid frame, ray", "why_tests_cant": "continuum", "anchors": ["tracer/paraboloid.py: Paraboloid"]}
{"id": "C31", "title": "Parabolic dish intersection", "statement": "ParabolicDishGM(D,f) reports the smallest t>0 at which the ray meets the paraboloid with focal length f inside the circular aperture of diameter D, +inf if none (same directions as C30).", "quantifier": "every D, f>0, rigid frame, ray", "why_tests_cant": "continuum", "anchors": ["tracer/paraboloid.py: ParabolicDishGM"]}
{"id": "C32", "title": "Hexagonal dish intersection", "statement": "HexagonalParabolicDishGM(D,f) reports the smallest t>0 at which the ray meets the paraboloid with focal length f inside the regular hexagon of circumscribed diameter D with two sides parallel to Y, +inf if none (same directions as C30).", "quantifier": "every D, f>0, rigid frame, ray", "why_tests_cant": "continuum", "anchors": ["tracer/paraboloid.py: HexagonalParabolicDishGM"]}
{"id": "C33", "title": "Surface normals", "statement": "For every selected hit, the normal reported by each geometry manager is a unit vector, is parallel to the gradient of the surface's implicit equation at the hit point (in global coordinates), and does not point along the incoming ray (n.d<=0).", "quantifier": "every geometry, rigid frame, ray", "why_tests_cant": "continuum", "anchors": ["tracer/flat_surface.py: get_normals", "tracer/sphere_surface.py: _normals", "tracer/cylinder.py: _normals", "tracer/paraboloid.py: _normals"]}
{"id": "C34", "title": "Reported hit points lie on the ray and on the surface", "statement": "For every selected ray with finite parameter t, get_intersection_points_global() is vertex+t*direction, in selection order.", "quantifier": "every geometry, frame, bundle, selection", "why_tests_cant": "unbounded bundles", "anchors": ["tracer/quadric.py: select_rays, get_intersection_points_global", "tracer/flat_surface.py: select_rays"]}
{"id": "C35", "title": "Geometry managers treat rays independently", "statement": "The parameter reported for a ray does not depend on the other rays of the bundle. Expected to fail for HemisphereGM and CutSphereGM, which assign selected roots in the wrong order when several rays have exactly one valid root.", "quantifier": "every geometry, frame, bundle", "why_tests_cant": "relational, over arbitrary bundles", "anchors": ["tracer/sphere_surface.py: lines 113-115, 176-178", "tracer/quadric.py", "tracer/cylinder.py", "tracer/paraboloid.py"]}
{"id": "C36", "title": "Bounding volumes", "statement": "BoundarySphere/BoundaryPlane.in_bounds say for each point whether it lies in the transformed sphere / on the positive side of the transformed plane. BoundaryCylinder.in_bounds says whether it lies in the transformed cylinder (expected to fail). bounding_rect_for_plane returns a rectangle containing the sphere's section (expected to fail when the centre is off z=0 or after a transform).", "quantifier": "every location, radius, frame, point set", "why_tests_cant": "continuum", "anchors": ["tracer/boundary_shape.py"]}
{"id": "C37", "title": "Mesh points lie on the surface", "statement": "For a positive resolution each mesh has only points of the surface, up to the overshoot of round plates, dishes (1/100 of a unit of resolution) and cylinders (half a unit), and every point of the surface is within two units of resolution of a mesh point (for dishes and triangles: in proportion to the slope and the edges); the number of points is of the order of area times resolution squared. Surface.mesh carries this to global coordinates with the surface's global frame. A cut sphere is expected to fail (it has the mesh of the whole sphere), and so is a hemisphere with a resolution below 1/(pi R).", "quantifier": "every size, resolution, frame", "why_tests_cant": "unbounded resolution", "anchors": ["tracer/*: mesh", "tracer/surface.py: Surface.mesh"]}
{"id": "C38", "title": "Reflection law", "statement": "For unit normals, reflections(d,n) has the same length as d, keeps the tangential component, negates the normal component; reflecting twice gives d back.", "quantifier": "every direction, unit normal", "why_tests_cant": "continuum", "anchors": ["tracer/optics.py: reflections"]}
{"id": "C39", "title": "Snell's law", "statement": "For rays not totally reflected and unit d,n and n1,n2>0, the refracted direction is a unit vector in the plane of d and n, on the same side as d, with n1*|d x n| = n2*|d' x n|.", "quantifier": "every direction, normal, indices", "why_tests_cant": "continuum", "anchors": ["tracer/optics.py: refractions"]}
{"id": "C40", "title": "Total internal reflection", "statement": "A ray is flagged refracted exactly when n1*sin(incidence)<=n2.", "quantifier": "every direction, normal, indices", "why_tests_cant": "continuum", "anchors": ["tracer/optics.py: refractions line 74"]}
{"id": "C41", "title": "Fresnel reflectance", "statement": "For refracted rays fresnel() is the reflectance of unpolarised light by Fresnel's formulas: within [0,1], equal to ((n1-n2)/(n1+n2))^2 at normal incidence, and the same for the reversed ray.", "quantifier": "every direction, normal, indices (non-grazing or n1<>n2)", "why_tests_cant": "continuum", "anchors": ["tracer/optics.py: fresnel"]}
{"id": "C42", "title": "Refractive surfaces conserve energy", "statement": "RefractiveHomogenous emits for each selected ray one reflected and, unless totally reflected, one refracted ray; their energies are non-negative and sum to the incoming energy; reflected rays keep their refractive index, refracted ones get the other one; parents are right.", "quantifier": "every bundle, selection, geometry with unit normals", "why_tests_cant": "unbounded bundles", "anchors": ["tracer/optics_callables.py: RefractiveHomogenous.__call__"]}
{"id": "C43", "title": "Refractive index toggling", "statement": "toggle_ref_idx maps each of the two indices to the other, twice gives the original, and any other index to the first.", "quantifier": "every pair and current index", "why_tests_cant": "continuum", "anchors": ["tracer/optics_callables.py: RefractiveHomogenous.toggle_ref_idx"]}
{"id": "C44", "title": "Reflective surfaces", "statement": "Reflective(a) emits exactly one ray per selected ray, at the hit point, in the mirrored direction, with (1-a) of the energy, parent = selected index, other properties (incl. extra ones) inherited.", "quantifier": "every bundle, selection", "why_tests_cant": "unbounded", "anchors": ["tracer/optics_callables.py: Reflective.__call__"]}
{"id": "C45", "title": "One-sided absorber", "statement": "AbsorberReflector reflects rays arriving against the surface's Z axis as Reflective does and sets the energy of rays arriving along it to 0.", "quantifier": "every bundle, selection", "why_tests_cant": "unbounded", "anchors": ["tracer/optics_callables.py: AbsorberReflector.__call__"]}
{"id": "C46", "title": "Receivers account for all absorbed energy", "statement": "After any history of hits since the last reset, get_all_hits() returns all hit points and absorbed energies in order, equally many, and for each hit absorbed + outgoing = incoming energy. If every recorded batch is empty (and at least one was recorded) it raises ValueError.", "quantifier": "every history of calls and resets", "why_tests_cant": "histories", "anchors": ["tracer/optics_callables.py: AbsorptionAccountant"]}
{"id": "C47", "title": "Lambertian reflection", "statement": "LambertianReflector emits one unit-direction ray per selected ray into the half-space of the normal, with (1-a) of the energy, whatever the random draws.", "quantifier": "every random draw sequence", "why_tests_cant": "all random outcomes", "anchors": ["tracer/optics_callables.py: LambertianReflector.__call__", "tracer/sources.py: pillbox_sunshape_directions", "tracer/spatial_geometry.py: rotation_to_z"]}
{"id": "C48", "title": "Hartmann dispersion formula", "statement": "refr_idx_hartmann computes a + b/(c-L) + d/(e-L). Expected to fail: the d,e term is dropped.", "quantifier": "all coefficients and wavelengths", "why_tests_cant": "continuum", "anchors": ["tracer/optics.py: refr_idx_hartmann"]}
{"id": "C49", "title": "Refractive surface with an empty selection", "statement": "RefractiveHomogenous called with an empty selector returns an empty bundle. Expected to fail: it raises AttributeError.", "quantifier": "every bundle", "why_tests_cant": "-", "anchors": ["tracer/optics_callables.py: RefractiveHomogenous.__call__ lines 130-131"]}
{"id": "C50", "title": "Rotation matrices", "statement": "general_axis_rotation(axis,angle) for a unit axis is orthogonal with determinant 1, fixes the axis, turns perpendicular vectors by angle in the right-hand sense, and angles about the same axis add; rotx/roty/rotz are the special cases.", "quantifier": "every axis, angle", "why_tests_cant": "continuum", "anchors": ["tracer/spatial_geometry.py: general_axis_rotation, rotx, roty, rotz"]}
{"id": "C51", "title": "Transforms compose and stay rigid", "statement": "generate_transform/translate/rot* produce rigid transforms; applying it to a point rotates then translates; products of rigid transforms are rigid.", "quantifier": "every axis, angle, translation", "why_tests_cant": "continuum", "anchors": ["tracer/spatial_geometry.py: generate_transform, translate"]}
{"id": "C52", "title": "rotation_to_z", "statement": "For unit v the result is a rotation whose third column is v and whose first column is horizontal; the identity for v=+Z.", "quantifier": "every unit vector", "why_tests_cant": "continuum", "anchors": ["tracer/spatial_geometry.py: rotation_to_z"]}
{"id": "C53", "title": "Location, rotation and transform stay in sync", "statement": "After any sequence of set_location, set_rotation, set_transform, get_location/get_rotation are the last column / upper-left block of get_transform, and each call changes only its own part. Bad shapes raise ValueError and change nothing. Expected to fail: the location given is kept, not copied, so writing into the caller's array later moves the location without the transform; writing into a transform that was given moves the object without a call.", "quantifier": "every history of calls", "why_tests_cant": "histories", "anchors": ["tracer/has_frame.py: HasFrame"]}
{"id": "C54", "title": "Global frames after a top-level transform", "statement": "After transform_children on the top assembly (hence after its set_transform/set_location/set_rotation/add_object/add_assembly), each surface below it has as global frame the product of the transforms on the path from the top; relative transforms and unrelated surfaces do not change.", "quantifier": "every assembly graph in which each surface is reachable by one path", "why_tests_cant": "arbitrary nesting, histories", "anchors": ["tracer/assembly.py: transform_children, set_*, add_*", "tracer/object.py: transform_children"]}
{"id": "C55", "title": "Global frames after a nested transform", "statement": "Changing the transform of a nested object or subassembly updates its surfaces' global frames to the full product (documented in opt_sys_construct.rst). Expected to fail: ancestors' transforms are ignored.", "quantifier": "every nested assembly", "why_tests_cant": "histories", "anchors": ["tracer/assembly.py: set_transform, transform_children"]}
{"id": "C56", "title": "Objects and surfaces are listed in matching order", "statement": "get_objects lists subassemblies' objects depth first and then own objects; get_surfaces is the concatenation of the objects' surfaces in that order; the engine's ownership table maps every surface index to the object containing it and the right relative index. An assembly with no objects raises TypeError from get_surfaces.", "quantifier": "every assembly tree", "why_tests_cant": "arbitrary nesting", "anchors": ["tracer/assembly.py: get_objects, get_surfaces", "tracer/tracer_engine.py: lines 108-117"]}
{"id": "C57", "title": "add_object / add_assembly set the child's transform", "statement": "The child's transform becomes the given one, or the identity when omitted, discarding any earlier one; it is appended last.", "quantifier": "every assembly, child, transform", "why_tests_cant": "histories", "anchors": ["tracer/assembly.py: add_object, add_assembly"]}
{"id": "C58", "title": "global_to_local inverts the global frame", "statement": "global_to_local(points) gives the coordinates p with frame*p = point; it raises LinAlgError for singular frames.", "quantifier": "every invertible frame, points", "why_tests_cant": "continuum", "anchors": ["tracer/surface.py: global_to_local"]}
{"id": "C59", "title": "Pillbox directions", "statement": "pillbox_sunshape_directions gives unit directions deviating from +Z by at most ang_range (0<=ang_range<=pi/2), for every random draw.", "quantifier": "every draw", "why_tests_cant": "all random outcomes", "anchors": ["tracer/sources.py: pillbox_sunshape_directions"]}
{"id": "C60", "title": "Solar disk bundle", "statement": "Every ray starts within the disk of given centre, radius, normal; its direction is unit and within ang_range of the given direction; with flux, energies are equal and sum to flux*pi*radius^2.", "quantifier": "every draw, num_rays", "why_tests_cant": "all random outcomes", "anchors": ["tracer/sources.py: solar_disk_bundle"]}
{"id": "C61", "title": "Square bundle", "statement": "square_bundle(num_rays,...) returns num_rays rays, all of equal direction, starting on a grid in the square perpendicular to direction. Expected to fail when num_rays is not a perfect square (arrays of different lengths), and the square's side is 2*width.", "quantifier": "every num_rays, width, centre, direction", "why_tests_cant": "unbounded", "anchors": ["tracer/sources.py: square_bundle"]}
{"id": "C62", "title": "One-sided mirrors never catch their own reflections", "statement": "After a ray leaves a rect_one_sided_mirror / one_sided_receiver, no surface of that object is tested for it in the next iteration.", "quantifier": "every trace", "why_tests_cant": "all executions", "anchors": ["tracer/models/one_sided_mirror.py"]}
{"id": "C63", "title": "Homogenizer walls", "statement": "The four walls of rect_homogenizer occupy exactly the rectangles x=+-X/2, y=+-Y/2, 0<=z<=height and their reflective sides face inward; rays from inside are reflected with opt_eff of their energy, rays from outside absorbed.", "quantifier": "every dimension", "why_tests_cant": "continuum", "anchors": ["tracer/models/homogenizer.py: rect_homogenizer"]}
{"id": "C64", "title": "Heliostat aiming", "statement": "After aim_to_sun, a ray from the sun's direction hitting any heliostat's centre is reflected toward the aim point, provided the heliostat is not at the aim point and the sun is not exactly opposite the tower direction; positions are kept. set_aim_height changes the aim height and nothing else.", "quantifier": "every field, sun position", "why_tests_cant": "continuum", "anchors": ["tracer/models/heliostat_field.py: HeliostatField.aim_to_sun, solar_vector"]}
{"id": "C65", "title": "Radial stagger layout", "statement": "Every position is r*(cos a, sin a) with r in {rmin+i*r_space < rmax}, a in {start+j*az_space/2 < end} and i, j of equal parity; all such positions occur exactly once.", "quantifier": "every parameters", "why_tests_cant": "unbounded", "anchors": ["tracer/models/heliostat_field.py: radial_stagger"]}
{"id": "C66", "title": "Triangulated surface", "statement": "Each non-degenerate face becomes one triangular surface covering exactly the triangle of its three vertices. Expected to fail when an earlier face is degenerate (positions are not filtered).", "quantifier": "every vertex and face list", "why_tests_cant": "unbounded", "anchors": ["tracer/models/triangulated_surface.py"]}
{"id": "C67", "title": "Spherical lens construction", "statement": "Front and back vertices are depth apart along the axis, focal_length satisfies the lensmaker equation, the bounding cylinder spans the gap between the two cuts. Expected to fail for planar faces: a planar front raises NameError, a planar back is misplaced by depth/n.", "quantifier": "every diameter, depth, radii, index", "why_tests_cant": "continuum", "anchors": ["tracer/models/spherical_lens.py"]}
{"id": "C68", "title": "Minidish dimensions and collectors", "statement": "standard_minidish_measures gives a dish of 45 degree rim angle, receiver area = dish aperture area / concentration, and a homogenizer length at which the dish is seen through virt_sources + 1 widths; MiniDish, PETAL and HomogenizedLocalReceiver then place the reflector at the origin, the receiver at the given distance on the axis facing it, an opaque back and the four mirrors of the homogenizer, wherever the whole is put. Expected to fail: virt_sources may equal diameter/W - 1 (the code divides by zero), and the aspect ratio changes the x dimension (it changes y).", "quantifier": "every diameter, concentration, virt_sources, focal length, sides, transform", "why_tests_cant": "continuum", "anchors": ["tracer/models/tau_minidish.py", "tracer/models/homogenized_local_receiver.py"]}
{"id": "C69", "title": "Flux histogram", "statement": "histogram_hits distributes all absorbed energy of hits inside the receiver's rectangle over the bins, none lost or double counted. After any trace through a minidish or PETAL collector that started with an empty account, the histogram holds exactly the rays that met the receiver first, at any level of the tree, each in the bin where it met it, and its total is all their energy.", "quantifier": "every history of hits; every collector, placement, source, number of bins", "why_tests_cant": "unbounded", "anchors": ["tracer/models/homogenized_local_receiver.py: histogram_hits"]}
{"id": "C70", "title": "Drawn ray segments", "statement": "show_rays draws exactly one line from each recorded ray's parent to the ray and one line of the given length along the direction of each shown ray without children, a ray being shown if it has energy and the selector chooses it. Expected to fail: when rays that are not shown precede childless ones the lines into the open start at other rays (indices of the filtered list are used), and lines to children are drawn whatever the selector says; it holds for every trace with energy threshold zero.", "quantifier": "every tree", "why_tests_cant": "unbounded", "anchors": ["tracer/mayavi_ui/scene_view.py: show_rays"]}
{"id": "C71", "title": "Scene/assembly synchronisation", "statement": "After any sequence of calls of a TracerScene the MayaVi scene shows exactly one mesh for each surface that the assembly had at the last update, as the surface was when last drawn, and the rays of the last trace; update_surfaces removes the meshes of vanished surfaces, adds those of new ones and keeps the others; trace_control returns the limits last set, with which the next trace is made. Expected to fail: set_assembly without clear_scene leaves the old meshes; update_surfaces just after clear_scene raises AttributeError if a surface vanished and does not draw the others again; set_source(None) leaves the old rays.", "quantifier": "every history of calls and of changes to assemblies and surfaces in between, every iteration order of dictionaries", "why_tests_cant": "histories", "anchors": ["tracer/mayavi_ui/scene_view.py: TracerScene"]}
{"id": "C72", "title": "Assembly tree widget", "statement": "After set_assembly the tree shows exactly the subassemblies, objects and surfaces of the assembly, nested and in order, each with its caption; a caption that was there is kept, a part without one gets its number among its like, and no other tag changes. After any use of the widget, renaming an item changes that item's text and the caption of its object only, and the name appears whenever the object is listed again. Expected to fail for the top assembly (its name is stored but never shown) and for a part listed twice (the other item keeps the old text).", "quantifier": "every assembly, tags, history of listings, renamings and tag changes", "why_tests_cant": "arbitrary nesting, histories", "anchors": ["tracer/qt/assembly_tree.py"]}
{"id": "C73", "title": "Tracing a well-formed library assembly never raises", "statement": "ray_tracer returns normally for every assembly of library surfaces with rigid frames, absorptivities within [0, 1], positive and different refractive indices and a geometry manager other than the hemisphere and the bounded cut sphere, and every source bundle with unit directions, non-negative energies and (if some surface is refractive) positive refractive indices; with tree=False at least one iteration is needed.", "quantifier": "every such assembly and bundle, every reps, min_energy, tree argument", "why_tests_cant": "no finite set of scenes covers the combinations of surfaces, masks and empty selections that could raise", "anchors": ["tracer/tracer_engine.py", "tracer/surface.py", "tracer/object.py", "tracer/optics_callables.py"]}
{"id": "C74", "title": "Constructors place everything below", "statement": "Constructing a surface, boundary, object or assembly from existing parts succeeds; the new node has the given (or default) location, rotation and transform, everything below it gets as global frame the product of the transforms on the path from it whatever N.empty returned, and nothing else changes.", "quantifier": "every history of calls, every parts, location, rotation, transform, nesting depth below the recursion limit", "why_tests_cant": "histories, arbitrary nesting, uninitialised memory", "anchors": ["tracer/has_frame.py: HasFrame.__init__", "tracer/assembly.py: Assembly.__init__", "tracer/object.py: AssembledObject.__init__", "tracer/boundary_shape.py"]}
{"id": "C75", "title": "Moving a surface takes effect in tracing", "statement": "After set_location, set_rotation or set_transform on a surface itself, tracing uses the new frame. Expected to fail: set_transform never changes the frame used in tracing, set_location only until an object or assembly has placed the surface.", "quantifier": "every history of calls", "why_tests_cant": "histories, aliasing", "anchors": ["tracer/has_frame.py: set_location, set_transform, __init__"]}
{"id": "C76", "title": "Solar azimuth convention", "statement": "solar_vector gives the direction at the given azimuth counterclockwise from east and the given angle from the zenith, with +x north and +z up. Expected to fail: the azimuth runs clockwise.", "quantifier": "every azimuth, zenith angle between 0 and pi", "why_tests_cant": "sign conventions over all angles", "anchors": ["tracer/models/heliostat_field.py: solar_vector"]}
{"id": "C77", "title": "A dish focuses light that comes down its axis", "statement": "A reflective round or hexagonal dish placed by any rigid transform reflects every ray it meets about the normal of its paraboloid, and sends every ray parallel to its axis through its focal point, keeping the given part of its energy.", "quantifier": "every diameter, focal length, placement, bundle of rays", "why_tests_cant": "continuum", "anchors": ["tracer/paraboloid.py", "tracer/optics_callables.py: Reflective", "tracer/surface.py"]}
{"id": "C78", "title": "Accounts after a trace", "statement": "After a trace, the record of an accounting surface consists of what it held before followed by one batch for every iteration in which some ray met it first: for each such ray, in order, the absorbed share of its energy and the point where it met the surface. Nothing else is recorded: other surfaces do not touch the record, and rays that meet another surface first leave no trace in it.", "quantifier": "every library assembly with an accountant of its own for the surface, source bundle, number of iterations, energy limit", "why_tests_cant": "whole traces over unbounded inputs", "anchors": ["tracer/tracer_engine.py: ray_tracer", "tracer/surface.py", "tracer/optics_callables.py: AbsorptionAccountant"]}
{"id": "C79", "title": "The energy of the source is accounted for", "statement": "In a trace of library surfaces in which no ray meets two surfaces at once, the rays sent on for a ray of energy e that met a surface carry together exactly e(1-a) for a reflective or Lambertian surface of absorptivity a (for a one-sided mirror e(1-a) from the front and 0 from the back), and exactly e for a refractive surface; rays that met nothing have no children. If every surface is refractive or a receiver (reflective or Lambertian) with an accountant of its own that starts empty, the source's energy equals the sum of what the receivers have on record after the trace, the energy of all rays that met no surface (escaped, or discarded for low energy) at any level but the last, and the energy of the last recorded level. Whatever the optics of the other surfaces, a receiver with an account of its own that starts empty has at most the source's energy on record after the trace.", "quantifier": "all library assemblies, sources without negative energy, random numbers, minimal energies and numbers of iterations", "why_tests_cant": "Conservation over a whole trace involves every level, every surface and the accumulated accounts; tests compare a few totals with a tolerance.", "anchors": ["tracer/tracer_engine.py:117-226", "tracer/optics_callables.py:9-262", "tracer/surface.py:60-107"]}
{"id": "C80", "title": "Where a spherical lens focuses", "statement": "As the comment in the constructor and the docstring of focal_length say, the lens of C67 brings rays parallel to its axis and close to it together at Z=-f, its back principal point being at Z=0. Expected to fail: the sign of the offset is wrong and the focus is at 2*pd-f, where pd is the distance of the principal point from the back vertex.", "quantifier": "every index, depth and pair of radii with a nonzero power", "why_tests_cant": "The offset is small for thin lenses and hidden by the tolerance of the existing test.", "anchors": ["tracer/models/spherical_lens.py:82-123"]}
{"id": "C81", "title": "The homogenizer of a collector can be moved alone", "statement": "set_location on the homogenizer of a HomogenizedLocalReceiver (MiniDish, PETAL) leaves the receiver where it is. Expected to fail: both got the same transform array, so the receiver moves along when the collector is next placed.", "quantifier": "every collector, new location and placement of the whole", "why_tests_cant": "aliasing of arrays", "anchors": ["tracer/models/homogenized_local_receiver.py: HomogenizedLocalReceiver.__init__", "tracer/has_frame.py: set_location"]}
{"id": "C82", "title": "Ray bundles have storage of their own", "statement": "inherit with an array of indices or a mask, delete_rays, addition and concatenate_rays give a new bundle with the values that C01-C04 say and arrays of its own: they change no bundle or array that exists, and whatever is done to the new bundle later leaves every earlier one as it is, and conversely. Setting entries of a property writes into the array of that property only; setting a property as a whole changes which array this bundle refers to and no array; reading gives the array itself, or with a selector a new array of the entries it denotes. Expected to fail: inherit() with its default selector copies nothing although its docstring says so, the two bundles hold the same arrays; and arrays passed to the constructor or to inherit are kept, not copied, so that setting entries writes into the caller's array.", "quantifier": "every heap of arrays and bundles, selector and later sequence of changes", "why_tests_cant": "aliasing shows only when something is changed later", "anchors": ["tracer/ray_bundle.py:54-223"]}
{"id": "C83", "title": "A trace leaves earlier arrays alone and its records stay as they are", "statement": "ray_tracer with identities of arrays returns what C07-C18 say of values or raises the same exception; no array or bundle that existed before the call changes, the source bundle included. The levels of the tree after the source bundle hold arrays made during the trace, separate from each other, from everything earlier and from the arrays kept by accountant optics; the vertices and directions returned (one iteration or more) are in no level and in no account. After any number of traces with the same assembly every tree still holds what was recorded in it. Expected to fail: the first level is the source bundle itself, so changing the source bundle later changes the recorded tree.", "quantifier": "every assembly of library surfaces, heap, source bundle and sequence of traces", "why_tests_cant": "aliasing shows only when something is changed later", "anchors": ["tracer/tracer_engine.py:79-188", "tracer/surface.py:44-93", "tracer/optics_callables.py:9-195"]}
{"id": "C84", "title": "The external dimensions of a collector", "statement": "get_external_dimensions of MiniDish and PETAL reports the bounding cylinder of the entire assembly, as its docstring says: wherever the collector is placed, rays meet its seven surfaces only inside the upright cylinder on the base of the dish with the reported diameter and height (up to the 1e-10 by which the opaque back of the receiver is set off), if the rim of the dish is not above the receiver and the receiver box is within the diameter and not deeper than its height; standard_minidish with a concentration of at least pi/2 meets these conditions. Expected to fail exactly as written: the back of the receiver is outside the reported cylinder, and so is the rim of a dish with diameter^2 > 16*focal_length*receiver_pos.", "quantifier": "all dish and receiver measures meeting the conditions, all placements, all rays whose direction is not almost parallel to the axis without being parallel", "why_tests_cant": "a bounding volume is a claim about every point of every surface", "anchors": ["tracer/models/tau_minidish.py:44-56", "tracer/models/PETAL_dish.py:38-50"]}
{"id": "C85", "title": "The tower plant of the example sends the sun to its receiver", "statement": "gen_plant and aim_field of examples/tower_gui.py do what the example is for: after building the plant and after each change of the sun's position, in whatever position the heliostats were left, the one ray sent to each heliostat comes to the centre of that heliostat, is reflected with all its energy (1 - absorptivity in general) to the centre of the receiver, and is absorbed there; no ray is left over; the tree has exactly these three levels in the order of the field, and the receiver's account grows by exactly these energies and hit points. This holds for a plant of any measures whose ways are free (no plate of the field within reach of another ray's way, no heliostat turned edge-on), and the radially staggered field of the example has free ways for each azimuth 0..180 and elevation 0..90 that its sliders allow, if the radial resolution is at least 1 and the angular resolution at least pi/8, the defaults. Choosing other resolutions (replace_plant) builds such a plant anew.", "quantifier": "all plants with free ways, all states of the field, all positions of the sun in the range of the sliders, all resolutions at least the defaults, all trace limits of at least two iterations, all energy thresholds below the energy of a reflected ray", "why_tests_cant": "the absence of shading and blocking is a claim about every pair of heliostats and every position of the sun", "anchors": ["examples/tower_gui.py:48-80", "tracer/models/heliostat_field.py:14-110", "tracer/models/one_sided_mirror.py", "tracer/mayavi_ui/scene_view.py:105-106"]}
{"id": "C86", "title": "The flux map of the tower example shows what this trace brought to the receiver", "statement": "_fmap_btn_fired of examples/tower_gui.py sends, for each heliostat, the same number of rays of energy 1: each ray deviates from the sun's direction by at most the half-angle of the sunshape and passes, one unit of length after its vertex, a point within the square of the given half-width around the heliostat's position, perpendicular to the sun; directions and points are those of the numbers drawn, no number being used twice. The map then shows exactly the rays of this trace that met the receiver before any other surface, each with its whole energy, in the cell of the place in the receiver's own coordinates; nothing recorded before the button was pressed is in it, no hit is lost at the borders of the map (which are the borders of the plate), and nothing in the scene is moved. If the mirrors and the receiver are too far from each other to touch, the map adds up to at most the number of rays sent; this is so in the example's field.", "quantifier": "all plants, in any state of the field, all positions of the sun, numbers of rays and bins, sunshapes up to pi/2, random numbers, iteration limits and energy thresholds, any earlier records in the receiver's account", "why_tests_cant": "the map is an image shown to the user, of thousands of random rays; no test looks at it", "anchors": ["examples/tower_gui.py:87-118", "tracer/sources.py", "tracer/optics_callables.py", "tracer/surface.py:60-107"]}
{"id": "C87", "title": "All light that comes down the axis of a dish collector ends on its receiver", "statement": "A MiniDish or PETAL collector whose homogenizer reaches from the receiver down to the focus (receiver at focal length + homogenizer depth, as standard_minidish builds it) collects the light that comes parallel to its axis: of any bundle of such rays, traced by ray_tracer with enough iterations and an energy threshold below what arrives, each ray that does not meet the back of the receiver is reflected by the dish through the focus, enters the box of four one-sided mirrors, is reflected once for every image of the walls its straight continuation crosses, and ends on the front of the receiver at the folded-back place; its recorded energy is the source energy times the dish efficiency times the homogenizer efficiency to the power of the number of reflections there. The record has exactly one entry for each of these rays and no other; no rays are left over; the histogram has each energy in the bin of its place (with the y axis of the receiver opposite to the collector's) and adds up to all of them. With perfectly reflecting walls the receiver gets all that the dish sends on. Expected to fail as labelled in examples/parabolic_dish_gui.py: the number of virtual sources is not the number of reflections of the edge rays.", "quantifier": "all measures with the rim below the focus, all efficiencies in [0,1], all rigid placements, all bundles of axial rays whose way is clear (no hit within 1e-6 of an edge or corner of the box, no wall met almost parallel), all energies, all iteration limits above the number of reflections", "why_tests_cant": "the number of reflections is unbounded and each of the seven surfaces must be first exactly when it should be", "anchors": ["tracer/models/homogenized_local_receiver.py", "tracer/models/homogenizer.py", "tracer/models/one_sided_mirror.py", "tracer/models/tau_minidish.py", "tracer/models/PETAL_dish.py", "tracer/tracer_engine.py", "examples/parabolic_dish_gui.py:25-40"]}
{"id": "C88", "title": "A trace depends neither on where the whole scene stands nor on the unit of energy", "statement": "If the surfaces and the source bundle are moved by the same rigid motion (a mirror image included) and all energies and the least energy are multiplied by the same positive factor, ray_tracer gives the moved result: the returned points and directions, every level of the tree (points, directions and energies moved and multiplied, parents and indices as before), the surfaces' frames, the random numbers used and the records of all accounting surfaces; or it raises the same exception. This holds for all geometries and optics and any placement of the surfaces, with any number of iterations and either tree argument; for scattering (Lambertian) surfaces if the motion is a translation. One set_transform on the assembly that holds the scene has this effect. Records read in the coordinates of the moved surface are the same as before. Expected to fail: turning a scattering surface with the scene turns the directions it draws; and building everything larger by a factor enlarges the result (the engine forgets intersections nearer than 1e-6 in absolute terms).", "quantifier": "all rigid motions, factors, scenes, sources, numbers of iterations", "why_tests_cant": "two infinite families of runs are compared", "anchors": ["tracer/tracer_engine.py:29-188", "tracer/surface.py:44-107", "tracer/optics_callables.py:23-189", "tracer/flat_surface.py:33-94", "tracer/quadric.py:42-160", "tracer/has_frame.py:56-74"]}
{"id": "C89", "title": "Wrong use raises a definite exception", "statement": "Reading a set property of a bundle through an index array that points beyond its entries or a mask of another length is an IndexError, and so is writing through one; writing through a fitting selector with a number of values that is neither the number selected nor one is a ValueError. The abstract geometry and boundary refuse with a TypeError to be traced. A surface asked for its outgoing rays before it was given incoming rays and told which to use, or after done(), raises AttributeError, and so does up() of a geometry after done(). refractions with arrays of different lengths, none of them of length one, is a ValueError. The histogram and flux map of a receiver that keeps no account are AttributeErrors. square_bundle of zero width is a ValueError, and so is drawing a tree in which the second bundle has another number of parents than of vertices, or drawing with a selector whose answer has neither one entry nor as many as there are rays, or tracing rays where there are no surfaces. Adding an object or assembly to something that is not an assembly, a surface or boundary to something that is not an object, or asking for objects or surfaces of something that has none, is an AttributeError, and leaves the assembly as it was.", "quantifier": "all bundles, selectors and values; all surfaces, geometries and states after done(); all arrays; all scenes and nodes", "why_tests_cant": "tests try one wrong call each and only two classes of exception occur in the suite", "anchors": ["tracer/ray_bundle.py:84-94", "tracer/geometry_manager.py:22-33", "tracer/boundary_shape.py:24-37", "tracer/surface.py:73-93", "tracer/optics.py:53-86", "tracer/models/homogenized_local_receiver.py:59-83", "tracer/sources.py:84-108", "tracer/mayavi_ui/scene_view.py:216-272", "tracer/assembly.py:46-93", "tracer/object.py:40-56"]}
{"id": "C90", "title": "Where light from any direction ends in a dish collector", "statement": "In a MiniDish or PETAL collector as in C87, light need not come down the axis. A ray may pass everything; it may end on the back of the receiver or on the outside of a wall of the box; the dish may reflect it past the box or onto the outside of the box; or the dish may reflect it into the box, where it is folded at the walls and ends on the front of the receiver, at the place and with the energy that follow from the law of reflection and the number of walls met. Of any bundle of such rays, in any mixture, traced by ray_tracer with enough iterations, the receiver records exactly those of the last kind whose energy on arrival is above the threshold, each once, with that energy and place; the others leave no entry; no rays are left over; the histogram shows the same. The axial light of C87 is a special case. The energy recorded is at most the efficiency of the dish times the energy sent.", "quantifier": "all measures with the rim below the focus, all efficiencies in [0,1], all rigid placements, all bundles of rays whose way is clear and that meet the dish at most once, all energies and thresholds, all iteration limits above the number of reflections", "why_tests_cant": "rays with unboundedly many reflections, escapes, and rays that fade at different iterations share the bundles of one trace", "anchors": ["tracer/models/homogenized_local_receiver.py", "tracer/models/homogenizer.py", "tracer/models/one_sided_mirror.py", "tracer/models/tau_minidish.py", "tracer/models/PETAL_dish.py", "tracer/tracer_engine.py", "examples/test_case.py"]}
{"id": "C91", "title": "The test-case program shows the sun on the receiver", "statement": "examples/test_case.py builds a MiniDish of diameter 5, tilts it by 45 degrees, sends sunlight of 1000 per unit of area from a disk of radius 2.5 and half-angle 5 mrad, and divides the histogram of the receiver by the area of a bin and by 1000. From a clean start, whatever random numbers are drawn, it finishes with a map of 50 by 50 numbers, none negative. In the coordinates of the dish the sun is on the axis and shines down it. A bin shows exactly the rays of the trace that met the receiver there, in suns, and if no ray meets two surfaces at once the map has at most the energy sent. When the ways of the rays are clear (C90), the map is the histogram of the rays' ends, and has at most 0.9 of the energy. A ray that deviates from the axis by a small angle ang and is mirrored by the dish passes the focal plane within 2*f*ang/(k-ang) of the focus, k being the cosine of twice the slope at the rim. With the default parameters this is less than 0.07, so nothing the dish mirrors misses the opening of the homogenizer; light that starts between 0.35 and 2.45 from the axis reaches the dish and then the receiver with at most two reflections at the walls; light that starts within 0.15 of the axis in both coordinates ends on the back of the receiver; and if all light starts in these two parts, the map has between 0.9^3 and 0.9 of the energy of the first part.", "quantifier": "all focal lengths, depths and sides for which the collector can be built, all numbers of rays, all random draws, any earlier state of the random generator", "why_tests_cant": "the program draws a picture of random rays; no test runs it", "anchors": ["examples/test_case.py:27-53", "tracer/models/tau_minidish.py", "tracer/models/homogenized_local_receiver.py", "tracer/sources.py"]}
{"id": "C92", "title": "The two-mirror example shows where the rays go", "statement": "examples/gui.py shows two rays and two one-sided mirrors, one in the plane y = z and one in the plane z = 0, and has sliders for the place of the source. The assembly can be built; with the source clear of the mirrors the scene opens, and moving the source to another clear place succeeds whatever was done before. The scene then has the pictures of the two mirrors and the lines of the two rays from the place where the source is now, and nothing from earlier places. The first ray is shown going to the first mirror at a right angle to it, if it starts in front of it and near enough, then down to the second mirror if that is long enough, then away with length 1 at 45 degrees; from behind the first mirror it just leaves. The second ray is shown falling: it is stopped by the back of the first mirror if the source is above it, and otherwise reflected by the second mirror up to the first and then away, or past the edge of the first mirror.", "quantifier": "all places of the source clear of the mirrors, all sequences of moves, all states of the library's objects, all orders in which a Python dict lists the surfaces", "why_tests_cant": "the example is interactive; no test opens a scene", "anchors": ["examples/gui.py:20-49", "tracer/mayavi_ui/scene_view.py", "tracer/models/one_sided_mirror.py"]}
{"id": "C93", "title": "The window of the dish example shows the dish that was asked for", "statement": "examples/parabolic_dish_gui.py shows a dish of diameter 1 with a homogenizer, the walls red, the dish blue, both sides of the receiver grey, and the paths of rays of the sun, and makes everything anew when the number of reflections or the concentration is changed. The window opens, and a change succeeds, exactly if the measures can be built: the concentration is positive, the number of reflections above -1, and the dish wider than (reflections + 1) apertures; otherwise ZeroDivisionError or ValueError is raised and the window stays as it was. After each success it shows exactly one mesh of each surface of the new dish, placed as designed, in its colour, and the lines of one trace of the new source, which starts half a unit above the receiver, carries 1000 in all and spreads by 4.65 mrad; nothing of earlier dishes is left. This needs rays strong enough to be traced (fewer than 20000 of them).", "quantifier": "all values of both parameters, all sequences of changes, all random draws, any scene that existed before", "why_tests_cant": "the program needs a display; no test runs it", "anchors": ["examples/parabolic_dish_gui.py:19-60", "tracer/mayavi_ui/scene_view.py:20-214", "tracer/models/tau_minidish.py:59-102"]}
{"id": "C94", "title": "The window of the tower example shows the field aimed from wherever the sun is put", "statement": "examples/tower_gui.py shows a field of heliostats, both sides of a receiver at height 10 and a trace of one ray for each heliostat, aims anew when the sun is moved and makes the plant anew when a distance is changed. For all positive distances and all positions of the sliders the window opens, and every change succeeds; a distance of zero raises ZeroDivisionError and leaves the window as it was. At any time the scene has exactly one mesh, in grey, of each surface of the plant that was asked for last, each heliostat placed and turned so that light from the present sun goes to the middle of the receiver, and the lines of one trace of the present rays; nothing of earlier plants or sun positions is left, not even of the field as it is first drawn, facing down. For distances of at least 1 and pi/8 the lines are exactly those from the sun to the middle of each heliostat and from there to the middle of the receiver, and the button for the flux map works at any time and gives a map whose total is between zero and the number of rays.", "quantifier": "all positive distances or distances of zero, all positions of the sun sliders, all sequences of changes, all random draws, any scene that existed before", "why_tests_cant": "the program needs a display; no test runs it", "anchors": ["examples/tower_gui.py:41-80", "examples/tower_gui.py:87-122", "tracer/mayavi_ui/scene_view.py:20-214", "tracer/models/heliostat_field.py:15-83"]}
{"id": "C95", "title": "Every ray of a trace follows the laws of optics", "statement": "In the tree of a trace over any assembly of the library's objects and surfaces, every ray of every level after the first starts where its parent, a ray of the level before that was traced on, first meets one of the surfaces, and goes on as the laws demand there, with the unit normal of the shape at that very point: from a mirror it is mirrored and has lost the absorbed share, from the back of a one-sided mirror it carries nothing, from a diffuse surface it leaves on the side the light came from, and at an interface between media it is either mirrored, with the share that Fresnel's equations give, all of it if refraction is impossible, or refracted by Snell's law into the other medium with the remaining share. Nothing else is ever in the tree, and nothing is lost or doubled: where a traced ray first meets a surface, the next level has exactly one ray of it that stays on its side, and exactly one more that passes the surface if the surface refracts and the angle allows it, none otherwise.", "quantifier": "all library assemblies, all bundles of unit directions, all energies, refractive indices and random draws, any number of iterations", "why_tests_cant": "tests follow a few rays through one or two surfaces; the laws have to hold for each of thousands of rays after reindexing in three places", "anchors": ["tracer/tracer_engine.py:29-189", "tracer/surface.py:44-93", "tracer/optics_callables.py:9-195", "tracer/optics.py:10-86"]}
{"id": "C96", "title": "What the symmetry of a scene keeps along every path of light", "statement": "If a motion (a shift, a turn or both at once) carries each surface of a scene along itself and no surface is diffuse, then along every path of light the momentum of the ray along this motion, refractive index times direction times the velocity of the motion, is the one it had at the source, through any number of reflections and refractions. So a system of revolution keeps the skewness of a ray, pipes made of planes and tubes keep its angle with their direction, and in a stack of parallel layers the tangential direction depends on the first and the present index only: a ray that is back in the first medium runs as it started or mirrored.", "quantifier": "all library assemblies without diffuse surfaces, all motions, all sources, any number of iterations, every ray of every level", "why_tests_cant": "an invariant of whole traces over all geometries; no test has more than two refractions", "anchors": ["tracer/tracer_engine.py:79-189", "tracer/optics.py:10-86", "tracer/optics_callables.py:9-160", "tracer/quadric.py:31-160", "tracer/flat_surface.py:16-94"]}
{"id": "C97", "title": "What every ray has from the ray of the source it comes from", "statement": "Following parents through the tree of a trace leads from every ray of every level to exactly one ray of the source. Every level has the same properties set as the source (and parents); the additional properties of a ray are those of the source ray it comes from, unchanged through any number of surfaces, and its energy is at most the energy of that ray.", "quantifier": "all library assemblies, all sources with any additional properties, any number of iterations, every ray of every level", "why_tests_cant": "the tests trace without additional properties, and read parents over one level", "anchors": ["tracer/ray_bundle.py:27-224", "tracer/tracer_engine.py:119-189", "tracer/trace_tree.py:1-56", "tracer/optics_callables.py:9-160"]}
{"id": "C98", "title": "Surfaces with geometry managers of their own do not disturb each other; sharing a manager is expected to fail", "statement": "Surfaces and geometry managers are objects that keep data from registering the rays to the end of an iteration. If every surface of an assembly has a geometry manager of its own, a trace is the same as if each surface carried its data as a value, with the same rays, tree, accounts and exceptions, and objects that the assembly does not use are left unchanged. Two surfaces given one geometry manager are expected to break this: the manager only knows the surface that registered last, so a ray may be reported to be reflected where it does not meet the surface.", "quantifier": "all assemblies, all surfaces in any state, all bundles, any number of iterations; sharing: two flat mirrors with one manager", "why_tests_cant": "no test gives a geometry manager to two surfaces, and none looks at objects outside the assembly", "anchors": ["tracer/surface.py:13-93", "tracer/tracer_engine.py:29-189", "tracer/flat_surface.py:16-94", "tracer/geometry_manager.py:1-62"]}
{"id": "C99", "title": "The order of surfaces and rays, and the grouping of surfaces into objects, do not matter", "statement": "Tracing the same surfaces listed in a different order, grouped into objects in a different way, with the rays of the source in a different order, gives the same light: as many levels, and on every level the same rays with the same position, direction, energy, refractive index and additional properties, each coming from the same ray before it, only numbered differently; and the account of each receiver has the same energies at the same points. One-sided objects must keep the surfaces they shut out from each other, and with them no ray may meet two surfaces at once.", "quantifier": "all library assemblies of plain and one-sided objects without diffuse surfaces and without hemispheres and cut spheres (whose answers depend on the other rays, see C13), all reorderings, all groupings, all sources, any number of iterations", "why_tests_cant": "each test has one order of surfaces and rays; the numbers of orders and groupings grow beyond any test", "anchors": ["tracer/tracer_engine.py:79-189", "tracer/object.py:11-101", "tracer/assembly.py:11-118", "tracer/models/one_sided_mirror.py:9-28", "tracer/ray_bundle.py:27-224"]}
{"id": "C100", "title": "What a homogenizer does to any light", "statement": "Build a rectangular homogenizer, put it anywhere and trace any source through it. Every ray on level L of the trace has been reflected L times, a times by the walls across its X axis and c times by those across its Y axis with a + c = L: its direction along X is that of the source ray times (-1)^a, along Y times (-1)^c and along the axis unchanged; it is on a wall; it has eff^L of the energy of the source ray, or none because it has met a wall from behind. A ray that starts between the walls never meets one from behind, so it has exactly eff^L of the energy, stays between the walls and is where the images of the walls in each other show it, as in a kaleidoscope; its slope limits the number of reflections: (a - 1) X |uz| <= H |ux| and (c - 1) Y |uz| <= H |uy|. A traced ray between the walls that comes to a wall farther than 1e-6 away, not almost parallel to it, is sent on from there.", "quantifier": "all reached scenes, all sizes, all efficiencies from 0 to 1, all rigid placements, all sources of unit rays, all energy limits, any number of iterations", "why_tests_cant": "the number of reflections is not bounded; a test has one box, one placement and a few rays", "anchors": ["tracer/models/homogenizer.py:11-43", "tracer/models/one_sided_mirror.py:13-46", "tracer/tracer_engine.py:79-189", "tracer/optics_callables.py:80-97", "tracer/flat_surface.py:11-213"]}
{"id": "C101", "title": "Light can be sent back the way it came", "statement": "A way of light from surface to surface that follows the laws of optics is, taken backwards, again such a way: it meets the same surfaces at the same points in the opposite order, runs the same straight lines, and keeps the same fraction of the energy. This holds for ways along which no surface scatters at random, one-sided mirrors are met on their front both ways, refractive surfaces lie between the two indices they know, and light that passes a surface does not run along it. Every ray of a trace has come such a way from its ray of the source, one meeting per level. Sent back to one of these meetings, a ray of any trace has a child at the point of the meeting that goes to where the first ray came from, with the index it had there and the same fraction of the energy. The laws leave no other choice.", "quantifier": "every assembly of library surfaces and source, every trace, level and ray; every lawful way of any length; every energy", "why_tests_cant": "reversing a path through arbitrary mirrors and glass; equality of forward and backward fractions is an identity over the reals", "anchors": ["tracer/optics.py:10-86", "tracer/optics_callables.py:16-161", "tracer/tracer_engine.py:79-189"]}
{"id": "C102", "title": "Nothing stands between a ray and the place where it is caught", "statement": "In the tree of a trace, take any ray that was traced on. Each of its children starts at a point of one of the surfaces, ahead of the ray, and no surface the ray is tried with has a point on the ray before that, other than surfaces met within a millionth of the ray's start. A ray without children has no surface in its way at all, with the same exception. So a surface across the way of a ray catches it, there or earlier. Points of a surface are those of the shape its geometry manager was made for, placed in space: planes, rectangles, disks, triangles, spheres, cylinders, paraboloids, round and hexagonal dishes; rays must not run almost parallel to a surface (C21, C28, C30). Hemispheres and cut spheres are left out, because their answers depend on the order of the rays (C26, C27). A ray is tried with all surfaces, except those that the object it comes from excludes.", "quantifier": "every assembly of library surfaces, every source bundle, every level and ray, every surface and every point of the ray", "why_tests_cant": "a test looks at single scenes; this is a claim about all points of all rays and all arrangements of surfaces", "anchors": ["tracer/tracer_engine.py: intersect_ray, ray_tracer", "tracer/surface.py: register_incoming", "tracer/flat_surface.py: find_intersections", "tracer/quadric.py: find_intersections", "tracer/object.py: own_rays, surfaces_for_next_iteration"]}
{"id": "C103", "title": "A trace finds every way of light with clear sight", "statement": "Take any way that light of a source ray can come: straight ahead to the first surface in its way, there sent on by mirror or glass as the laws of optics demand, from there straight to the next surface, and so on. If the way has no more meetings than the trace has iterations, and the energy is above the limit until the last meeting, then the tree of the trace has a ray in the level given by the number of meetings that descends from that source ray and has the place, direction, energy and index that the way ends with. Surfaces are met more than a millionth after the start of each piece and not grazed; they do not scatter at random; and no surface is almost parallel to a piece of the way. With C95, C101 and C102 a trace holds these ways and only lawful ones. The claim is for ordinary objects, whose rays are tried with every surface.", "quantifier": "every assembly of ordinary objects, every source bundle, every number of iterations and energy limit, every way of light of any length", "why_tests_cant": "a test follows a few known rays; a ray that is lost somewhere, in some scene, after some number of reflections goes unnoticed", "anchors": ["tracer/tracer_engine.py: intersect_ray, ray_tracer", "tracer/surface.py: register_incoming, get_outgoing", "tracer/optics_callables.py: Reflective, AbsorberReflector, RefractiveHomogenous", "tracer/object.py: own_rays, surfaces_for_next_iteration"]}
{"id": "C104", "title": "Light goes there in one trace and comes back in another", "statement": "Let light come from a point by any number of mirrors and glass surfaces, all in the open, to a last one and from there to a point P in the open. A trace takes it that way. If a source at P sends a ray back in the opposite direction, with the refractive index the light had there, a trace takes that ray by the same places in the opposite order to the first surface and on in the direction the light had come from, with the index it had come with. Both rays keep the same fraction of their energy. The first trace needs its energy above the limit until the last surface, the second its energy after the last surface; both need as many iterations as there are surfaces on the way. The way back needs no separate assumption that it is open. The claim is for ordinary objects and surfaces that work back (C101): no scattering, one-sided mirrors met on their fronts, glass between the indices it knows, nothing grazed.", "quantifier": "every assembly of ordinary objects, every pair of source bundles, every way of any length, every energy of the ray sent back", "why_tests_cant": "a test would have to know ways of light through many scenes in both directions", "anchors": ["tracer/tracer_engine.py: intersect_ray, ray_tracer", "tracer/surface.py: register_incoming, get_outgoing", "tracer/optics.py: fresnel, reflections, refractions", "tracer/optics_callables.py: Reflective, AbsorberReflector, RefractiveHomogenous"]}
{"id": "C105", "title": "Plane mirrors make images", "statement": "In an assembly of flat mirrors only (infinite, rectangular, round or triangular, of any reflectivity, in any position), take any ray of any level of a trace. It descends from one ray of the source by way of as many mirrors as its level says. Its place and direction are those that one gets by letting the source's ray go straight on for the whole length of the way and reflecting the end point and the direction in the planes of these mirrors, one after the other. Such images keep all distances and angles. So two parallel mirrors leave the direction as it was, two others turn it about their common line by twice their angle, and three mirrors at right angles to each other, in any order, send light back opposite to the way it came, on the other side of their common point. In a trace among mirrors that are all at right angles to each other no light is reflected more than three times, and after the third time it goes back.", "quantifier": "every assembly of plane mirrors, every source bundle, every trace of any length, every ray of every level", "why_tests_cant": "tests have one mirror, or a pair; the claim is about chains of any length", "anchors": ["tracer/tracer_engine.py: ray_tracer", "tracer/flat_surface.py: FlatGeometryManager, RectPlateGM, RoundPlateGM", "tracer/triangular_face.py: TriangularFace", "tracer/optics.py: reflections", "tracer/optics_callables.py: Reflective, AbsorberReflector"]}
{"id": "C106", "title": "A longer trace begins like a shorter one, and a trace can be resumed", "statement": "The tree of a trace with r1 + r2 iterations begins with the tree of the trace of the same bundle with r1 iterations: their first r1 + 1 levels are equal. Each receiver's account after the longer trace begins with its account after the shorter one. If all objects of the assembly are ordinary ones (no method of AssembledObject overridden) and rays are left after r1 iterations, a second trace with r2 iterations, of the bundle of these rays and with the surfaces and accounts as the first trace left them, gives the levels that the trace with r1 + r2 iterations has after the first r1, returns the same vertices and directions and leaves the same surfaces, accounts and random numbers. One of the two ways of tracing raises an exception only if the other does.", "quantifier": "every assembly, every source bundle, every number of iterations; the claim on resuming holds for surfaces of any kind, also of classes that are not in the library", "why_tests_cant": "tests use one number of iterations for a scene", "anchors": ["tracer/tracer_engine.py: ray_tracer", "tracer/object.py: own_rays, surfaces_for_next_iteration", "tracer/optics_callables.py: AbsorptionAccountant"]}
{"id": "C107", "title": "What is out of sight makes no difference", "statement": "Add one more object to an assembly of ordinary objects, with any number of surfaces of any optics, such that no ray of the trace sees them: each ray that is traced on either never comes to the added surface, or comes to one of the surfaces there were already before it comes to the added one (more than a millionth from its start, and not already touching that surface at its start). Then the trace with the added object returns the same rays, has the same tree, level by level and ray by ray, and leaves the same accounts and random numbers as the trace without it.", "quantifier": "all library assemblies of ordinary objects, all sources, any number of iterations, any number of added surfaces of every shape the library has, in any position", "why_tests_cant": "no test adds a surface behind another one; the statement compares two traces through any number of levels, and depends on minima over columns that get more rows, on the cleaning of small parameters that looks at the whole matrix, and on the book-keeping by surface number", "anchors": ["tracer/tracer_engine.py:45-77", "tracer/tracer_engine.py:108-181", "tracer/object.py:67-98"]}
{"id": "C108", "title": "Light fades, and traces end by themselves", "statement": "In an assembly whose surfaces all absorb at least the fraction a of the light they meet (mirrors, one-sided absorbers, scattering surfaces and receivers; no glass), every ray on level L of a trace has at most (1-a)^L of the energy of the strongest ray of the source. So if (1-a)^r of that is not above the minimum energy, r iterations are enough: no rays are left, the tree has at most r + 1 levels, and traces with more iterations give the same. If a and the minimum energy are positive there is such a number r, the same for all random numbers. The number cannot be improved: light between two mirrors that absorb one half uses all of it, and with a minimum energy of zero it goes on for any number of iterations.", "quantifier": "all library assemblies with absorbing surfaces, all sources, any number of iterations, all fair random numbers", "why_tests_cant": "the tests trace for two to a few iterations with a fixed limit and look at single rays; that a number of iterations suffices for all sources of a strength is a statement about all levels of all traces", "anchors": ["tracer/tracer_engine.py:119-181", "tracer/optics_callables.py:9-97"]}
{"id": "C109", "title": "Light in a mirror ball", "statement": "In an assembly of one surface, a SphericalGM with Reflective optics, light that starts inside the ball never escapes. A ray goes from the sphere to the sphere along chords that all have the same length, lie in one plane through the centre and pass the centre at the same distance on the same side; after n meetings it has the energy e(1-a)^n, and each level of the tree has exactly one ray that comes from it, as long as its energy is above min_energy. The trace goes on to the last iteration, every level has (1-a)^L of the energy of the source, and a ball that keeps account has recorded E(1-(1-a)^reps).", "quantifier": "every rigid placement, radius, absorptivity, source inside the ball (more than a millionth of the way from its first meeting), number of iterations", "why_tests_cant": "the claim is about paths of any number of meetings in every ball; a test follows a few rays for a few meetings", "anchors": ["tracer/sphere_surface.py:35-68", "tracer/quadric.py:31-126", "tracer/optics_callables.py:9-44", "tracer/tracer_engine.py:79-188"]}
{"id": "C110", "title": "Light in a mirror tube", "statement": "In an assembly of one surface, an InfiniteCylinder or FiniteCylinder with Reflective optics, light that starts inside the tube winds along it: it meets the wall at equal steps, keeps its rise along the axis, its angle with the wall and its sense of winding, and has the energy e(1-a)^n after n meetings. Each level of the tree has exactly one ray that comes from it as long as there is a wall where it comes and its energy is above min_energy, and none once it has passed the end of the tube. The n-th meeting is at the height z + (first + (n-1) next) dz, so the length of the tube decides how often the wall is met.", "quantifier": "every rigid placement, diameter, height or none, absorptivity, ray inside the tube (squared part across the axis above 1e-10, more than a millionth of the way from its first meeting), number of iterations", "why_tests_cant": "the claim is about paths of any number of meetings in every tube; a test follows a few rays for a few meetings", "anchors": ["tracer/cylinder.py:15-98", "tracer/quadric.py:31-126", "tracer/optics_callables.py:9-44", "tracer/tracer_engine.py:79-188"]}
{"id": "C111", "title": "A dish as a searchlight", "statement": "In an assembly of one surface, a ParabolicDishGM or HexagonalParabolicDishGM with Reflective optics, a ray that starts at the focus and comes to the dish gives exactly one ray, which starts where it meets the dish, runs along the axis, has the energy e(1-a) and meets nothing more. The way from the focus to the dish is the height of the point met plus the focal length, so all light has come equally far in any plane across the axis. A ray from the focus that does not come to the dish meets nothing.", "quantifier": "every rigid placement, diameter, focal length above 1e-6, absorptivity, direction (along the axis, or with a squared part across above 4f*1e-10), number of iterations", "why_tests_cant": "the claim is about every direction from the focus of every dish; a test traces a few rays in one dish", "anchors": ["tracer/paraboloid.py:10-110", "tracer/paraboloid.py:139-180", "tracer/quadric.py:31-126", "tracer/optics_callables.py:9-44", "tracer/tracer_engine.py:79-188"]}
{"id": "C112", "title": "Light in a drop", "statement": "In an assembly of one surface, a SphericalGM with RefractiveHomogenous optics, a ray that comes from outside and is not totally reflected is mirrored with the fraction f of its energy that Fresnel's formulas give, and the rest goes in by Snell's law. Inside it goes from chord to chord, all of one length; at each end the fraction f is mirrored on and the fraction 1-f leaves, at the angle with the drop, in the plane and at the distance from the centre at which the ray came. After q reflections inside the light has the energy e(1-f)f^q and is at level q+1 of the tree, and what leaves then is at level q+2, as long as the energies are above the limit. No other rays come of it, and these shares make up the whole energy.", "quantifier": "every rigid placement, radius, pair of refractive indices, starting point and direction outside, number of reflections", "why_tests_cant": "the claim is about every ray and any number of inner reflections; a test follows one ray for a few", "anchors": ["tracer/sphere_surface.py:35-68", "tracer/quadric.py:31-126", "tracer/optics.py:10-86", "tracer/optics_callables.py:99-162", "tracer/tracer_engine.py:79-188"]}
{"id": "C113", "title": "Light in a pane of glass", "statement": "In an assembly of two parallel infinite planes with RefractiveHomogenous optics of the same two indices, a ray that comes to the pane and is not totally reflected is mirrored with the fraction f of its energy that Fresnel's formulas give, and the rest goes in by Snell's law. Inside it goes to and fro; at each face the fraction f is mirrored on and the fraction 1-f leaves. All that leaves beyond the pane is exactly parallel to the ray that came, and all that leaves before it to its mirror image; the places where light leaves on one side are equally spaced, 2w tan(t') apart. After q reflections inside the light has the energy e(1-f)f^q and is at level q+1 of the tree, and what leaves then is at level q+2, as long as the energies are above the limit. No other rays come of it.", "quantifier": "every placement and thickness of the pane, pair of refractive indices, starting point and direction (not almost parallel to the faces), number of reflections", "why_tests_cant": "the claim is about every ray and any number of inner reflections; a test follows one ray for a few", "anchors": ["tracer/flat_surface.py:11-105", "tracer/optics.py:10-86", "tracer/optics_callables.py:99-162", "tracer/tracer_engine.py:79-188"]}
