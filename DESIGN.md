# Formal model of the `tracer` ray tracer

Source: `/repo` (yosefm/tracer, Python 2 + numpy), read as text only. The model
is in `rocq/theories`, Coq 8.16.1, standard library only.

## Layout

* `Base/`   Python/numpy vocabulary: result monad with Python exceptions, list
            versions of numpy indexing, extended numbers, 3-vectors, 3x3 and 4x4
            matrices. No claims.
* `Model/`  the program, function by function; each definition cites file and
            lines. No proofs.
* `Spec/`   what the claims mean: surfaces as point sets, "first hit", "unit",
            multisets, paths in an assembly, ... The claims are stated with these
            and with the outcome of the modelled functions, not with the helpers
            the model is written with.
* `Proof/`  lemmas, and the constructions behind the examples and witnesses.
* `Props/`  the property theorems only (named `cNN_...`), each closed by `exact`,
            with `Print Assumptions` below it and an `Example` with a case that
            meets its hypotheses.

`properties.jsonl` has the claims in English, `MANIFEST.json` says which theorems
settle each. A claim the code does not satisfy is settled by a theorem ending in
`_refuted` with an explicit witness, together with the strongest true variant we
could prove; the English text says "expected to fail" there. `seeded/LOG.jsonl`
lists the wrong programs the theorems were tried against.

## Trusted base

1. Coq's kernel (8.16.1), and `coqchk` for the independent check of the compiled
   files.
2. The axioms below. All are axioms of the standard library; the model adds none.
3. The reading of the Python text: that the definitions of `Model/` do what the
   cited lines do, on exact real numbers, with the simplifications listed below.
4. What `Base/Py.v`, `Base/Num.v` and `Base/Vec.v` say of Python and numpy.
5. That the English of `properties.jsonl` says what the theorems say.

### Axioms per theorem

As printed by `Print Assumptions`, for the 383 property theorems. The letters:

* F  `ClassicalDedekindReals.sig_forall_dec`
* N  `ClassicalDedekindReals.sig_not_dec`
* E  `FunctionalExtensionality.functional_extensionality_dep`
* C  `Classical_Prop.classic`

F, N and E come with the standard library's real numbers; C with its lemmas on
square roots, trigonometry and limits.

* **none** (46 theorems): `c01_inherit_error`, `c01_inherit_values`, `c02_add`, `c02_add_assoc`, `c03_concatenate`, `c03_concatenate_fails`, `c03_concatenate_nothing`, `c04_delete`, `c04_delete_partition`, `c05_equal_lengths`, `c06_get_selected`, `c06_has_property`, `c06_missing`, `c06_set_get`, `c06_set_named`, `c06_set_selected`, `c06_unset`, `c19_ordered_parents`, `c19_parents_missing`, `c20_default_level_refuted`, `c20_history_refuted`, `c20_source_left_out`, `c49_empty_selection_refuted`, `c56_get_objects`, `c56_get_surfaces`, `c56_ownership`, `c72_listed`, `c72_name_kept`, `c72_renamed`, `c72_top_refuted`, `c72_twice_refuted`, `c73_objects_answer`, `c82_add`, `c82_concatenate_rays`, `c82_delete_rays`, `c82_empty_bund`, `c82_get`, `c82_get_selected`, `c82_given_arrays`, `c82_inherit`, `c82_inherit_default`, `c82_inherit_values`, `c82_set_entries`, `c82_set_whole`, `c89_get`, `c89_set`
* **F** (22 theorems): `c53_bad_location`, `c53_bad_rotation`, `c53_bad_transform_refuted`, `c53_in_sync`, `c53_new_frame`, `c53_new_object`, `c53_set_location`, `c53_set_rotation`, `c53_set_transform`, `c53_written_location_refuted`, `c53_written_transform`, `c54_setters_succeed`, `c54_succeeds`, `c54_well_placed_unique`, `c67_one_ray`, `c75_new_surface`, `c75_set_location`, `c75_set_rotation`, `c75_set_transform`, `c88_hits`, `c88_objects`, `c89_containers`
* **E, F** (74 theorems): `c07_first_surface`, `c08_one_surface_without_ties`, `c105_corner`, `c105_rigid`, `c105_two_mirrors`, `c106_resumable`, `c106_resumed`, `c111_once`, `c112_energy`, `c16_engine_raises`, `c17_no_iteration_raises`, `c17_truthy`, `c21_unique`, `c22_accepted`, `c22_rejected`, `c23_rejected`, `c25_rejected`, `c30_rejected`, `c36_cylinder_answer`, `c36_cylinder_axis`, `c36_cylinder_fails`, `c36_cylinder_refuted`, `c36_cylinder_rotation_refuted`, `c36_plane`, `c36_sphere`, `c38_reflection`, `c43_toggle`, `c48_computed`, `c48_hartmann_refuted`, `c51_products`, `c51_translate`, `c53_shared_transform_refuted`, `c54_add_boundary`, `c54_add_surface`, `c54_set_location`, `c54_set_rotation`, `c54_set_transform`, `c54_transform_children`, `c55_nested_refuted`, `c55_repaired`, `c57_add_assembly`, `c57_add_object`, `c58_global_to_local`, `c62_mirror`, `c62_receiver`, `c64_aim_height`, `c64_moved`, `c67_planar_back_refuted`, `c67_vertex`, `c69_bins`, `c69_histogram`, `c70_drawn`, `c70_faithful`, `c70_refuted`, `c70_selector_refuted`, `c74_assembly`, `c74_boundary`, `c74_object`, `c74_sphere`, `c74_surface`, `c75_set_transform_refuted`, `c80_docstring_refuted`, `c80_focus`, `c82_given_arrays_refuted`, `c82_inherit_default_refuted`, `c87_energy`, `c87_folds`, `c88_local`, `c89_accountless`, `c89_drawn`, `c89_no_surfaces`, `c89_selector`, `c90_energy`, `c96_surfaces`
* **E, F, N** (78 theorems): `c103_to_and_fro`, `c109_unique`, `c110_steps`, `c110_unique`, `c16_hemisphere_negative_refuted`, `c16_library_params_proper`, `c21_infinite_plane`, `c22_rect_plate`, `c23_round_plate`, `c24_degenerate_is_plane`, `c24_triangle`, `c25_sphere`, `c26_bundle`, `c26_hemisphere`, `c27_bundle`, `c27_cut_sphere`, `c27_cylinder_bound_fails`, `c27_uncut`, `c28_cylinder`, `c28_nearly_parallel_refuted`, `c29_finite_cylinder`, `c30_nearly_parallel_refuted`, `c30_paraboloid`, `c31_accepted`, `c31_parabolic_dish`, `c32_accepted`, `c32_hexagonal_dish`, `c33_normals`, `c34_points`, `c34_select_total`, `c35_hemisphere_refuted`, `c35_independent`, `c36_bounding_rect`, `c36_bounding_rect_moved_fails`, `c36_bounding_rect_refuted`, `c37_coarse_triangle`, `c37_cut_sphere_refuted`, `c37_cylinder_refuted`, `c37_hemisphere_refuted`, `c37_no_diameter`, `c37_no_mesh`, `c37_rectangle`, `c37_rectangle_points`, `c37_round_refuted`, `c37_surface`, `c37_triangle`, `c37_triangle_points`, `c39_snell_unique`, `c40_total_reflection`, `c50_general_axis`, `c50_main_axes`, `c51_generate_transform`, `c52_first_column`, `c52_rotation_to_z`, `c61_counts`, `c61_square`, `c61_square_bundle`, `c61_two_rays_refuted`, `c61_width_refuted`, `c65_stagger`, `c66_bad_index`, `c67_lens`, `c67_planar_back`, `c67_planar_front_refuted`, `c68_limit_refuted`, `c68_measures`, `c76_clockwise`, `c76_counterclockwise_refuted`, `c81_minidish_refuted`, `c81_receiver_refuted`, `c85_built`, `c89_abstract`, `c89_refractions`, `c89_square`, `c90_axial`, `c91_aligned`, `c92_paths`, `c93_measures`
* **C, E, F, N** (163 theorems): `c08_one_surface_refuted`, `c09_tree_complete`, `c09_tree_geometry`, `c100_homogenizer`, `c101_determined`, `c101_sent_back`, `c101_trace`, `c101_way`, `c102_caught`, `c102_plain`, `c102_sight`, `c103_found`, `c104_open_back`, `c104_there_and_back`, `c105_corner_trace`, `c105_images`, `c106_begins`, `c107_hidden`, `c108_ends`, `c108_enough`, `c108_fades`, `c108_least`, `c108_no_limit`, `c109_chords`, `c109_no_escape`, `c109_receiver`, `c10_levels_ordered`, `c110_winds`, `c111_beam`, `c112_drop`, `c113_pane`, `c11_weak_rays_not_traced`, `c12_bounded`, `c13_independence_refuted`, `c13_independent_given_cutoff`, `c14_library_objects`, `c14_ownership`, `c15_energy_not_created`, `c17_tree_false`, `c17_tree_true`, `c18_surfaces_restored`, `c18_trace_again`, `c19_traced_levels`, `c37_cut_sphere`, `c37_cylinder`, `c37_cylinder_points`, `c37_dish`, `c37_dish_points`, `c37_hemisphere`, `c37_hemisphere_points`, `c37_round`, `c37_round_points`, `c37_sphere`, `c37_sphere_points`, `c39_c40_refractions`, `c39_snell`, `c40_incidence_exists`, `c41_fresnel`, `c41_undefined`, `c42_refractive_surface`, `c44_reflective`, `c45_absorber`, `c46_all_hits`, `c46_balanced`, `c46_one_sided_refuted`, `c47_lambertian`, `c59_pillbox`, `c59_pillbox_draws`, `c60_solar_disk`, `c60_solar_disk_draws`, `c62_surfaces`, `c62_untested`, `c63_homogenizer`, `c64_aimed`, `c64_built`, `c64_moved_refuted`, `c65_clockwise_refuted`, `c66_any_faces`, `c66_faces`, `c66_misplaced_refuted`, `c68_aspect_refuted`, `c68_minidish`, `c68_petal`, `c68_receiver`, `c68_standard`, `c69_minidish`, `c69_petal`, `c70_trace`, `c71_cleared_refuted`, `c71_control`, `c71_history`, `c71_replace_refuted`, `c71_source_refuted`, `c71_undrawn_refuted`, `c71_update`, `c73_tracing_answers`, `c77_hexagonal`, `c77_round`, `c78_accounts`, `c78_all_hits`, `c78_others`, `c79_ledger`, `c79_receiver_bound`, `c79_sent_on`, `c83_history`, `c83_source`, `c83_source_refuted`, `c83_trace`, `c84_minidish`, `c84_minidish_refuted`, `c84_petal`, `c84_petal_refuted`, `c84_standard`, `c85_aimed`, `c85_example_aimed`, `c85_example_built`, `c85_example_replaced`, `c85_free`, `c86_apart`, `c86_example_map`, `c86_map`, `c87_edge_refuted`, `c87_minidish`, `c87_petal`, `c87_standard`, `c88_brighter`, `c88_enlarged_refuted`, `c88_moved`, `c88_random_refuted`, `c88_scene`, `c89_protocol`, `c90_minidish`, `c90_petal`, `c90_standard`, `c91_caught`, `c91_default`, `c91_folded`, `c91_map`, `c91_no_spill`, `c91_ring`, `c91_shadow`, `c91_spot`, `c92_scene`, `c93_always`, `c93_change`, `c93_open`, `c94_always`, `c94_lines`, `c94_map`, `c94_open`, `c94_replace`, `c94_sun`, `c95_laws`, `c96_conserved`, `c96_layers`, `c96_pipe`, `c96_revolution`, `c97_lineage`, `c98_objects`, `c98_shared_refuted`, `c99_accounts`, `c99_order`, `c99_plain`

## What is modelled

A function counts as modelled if a comment of the model cites its lines.

| source | model file | functions modelled | not modelled |
|--------|------------|--------------------|--------------|
| `assembly.py` | Assembly, Scene | 9 of 11 | Assembly.get_local_objects (36-42), Assembly.get_assemblies (43-45) |
| `boundary_shape.py` | Boundary, Assembly | 9 of 10 | BoundaryShape.bounding_rect_for_plane (39-55) |
| `cylinder.py` | Geometry, Mesh | 6 of 6 | - |
| `flat_surface.py` | Geometry, Mesh | 13 of 14 | FiniteFlatGM.__init__ (112-114) |
| `geometry_manager.py` | Geometry | 3 of 6 | GeometryManager.find_intersections (9-27), GeometryManager.get_normals (50-56), GeometryManager.get_intersection_points_global (57-63) |
| `has_frame.py` | Assembly | 5 of 8 | HasFrame.get_location (36-38), HasFrame.get_rotation (39-41), HasFrame.get_transform (66-68) |
| `mayavi_ui/scene_view.py` | View | 10 of 12 | TracerScene.set_background (108-116), TracerScene.scene_view_item (161-171) |
| `models/PETAL_dish.py` | Models | 2 of 2 | - |
| `models/heliostat_field.py` | Models | 5 of 6 | HeliostatField.get_heliostats (47-50) |
| `models/homogenized_local_receiver.py` | Models | 2 of 5 | HomogenizedLocalReceiver.get_receiver_surf (48-51), HomogenizedLocalReceiver.get_homogenizer (52-55), HomogenizedLocalReceiver.get_main_reflector (56-58) |
| `models/homogenizer.py` | Models | 1 of 1 | - |
| `models/one_sided_mirror.py` | Models | 3 of 3 | - |
| `models/spherical_lens.py` | Lens | 2 of 2 | - |
| `models/tau_minidish.py` | Models | 4 of 4 | - |
| `models/triangulated_surface.py` | Triangulated | 1 of 1 | - |
| `object.py` | Assembly, Objects, Scene | 7 of 8 | AssembledObject.get_boundaries (58-60) |
| `optics.py` | Optics | 4 of 4 | - |
| `optics_callables.py` | OpticsCallables, Scene, HeapTrace | 14 of 14 | - |
| `paraboloid.py` | Geometry, Mesh | 8 of 8 | - |
| `qt/assembly_tree.py` | AssemblyTree | 7 of 8 | AssemblyTree.get_assembly (58-60) |
| `quadric.py` | Geometry | 6 of 6 | - |
| `ray_bundle.py` | RayBundle, BundleHeap | 11 of 11 | - |
| `sources.py` | Sources | 3 of 3 | - |
| `spatial_geometry.py` | Spatial | 7 of 7 | - |
| `sphere_surface.py` | Geometry, Mesh | 10 of 11 | SphericalGM.get_radius (27-29) |
| `surface.py` | Surface, Assembly, Scene, Mesh, HeapTrace | 7 of 9 | Surface.get_optics_manager (30-36), Surface.get_geometry_manager (37-43) |
| `trace_tree.py` | TraceTree | 6 of 6 | - |
| `tracer_engine.py` | Engine, Scene, HeapTrace | 2 of 3 | TracerEngine.__init__ (12-28) |
| `triangular_face.py` | Geometry, Mesh | 4 of 4 | - |
| `examples/tower_gui.py` | Tower | 6 of 8 | TowerScene.initialize_camere (83-86), TowerScene._fmap_default (124-142) |

Most of those not modelled return an attribute that the model reads directly, or
are abstract methods without a body. The others, and everything else that is left
out:

* `TracerScene.set_background` and `scene_view_item` (colour of the window and the
  layout of the user interface), the traits and Qt machinery that calls the
  modelled methods, `__main__` sections;
* in `examples/`: layout of the windows, camera, background, figures, and the files other than
  `gui.py`, `tower_gui.py`, `parabolic_dish_gui.py` and `test_case.py` (of the last, the plot, the command line and a
  receiver of side 0 are left out);
* `tests/`, `user-doc/`, `setup.py`. Claims made in the docstrings and
  in `user-doc/` are the source of some properties (C36, C55, C65, C67, C68, C76,
  C80);
* speed and use of memory, pickling, subclassing by users of the library (but the
  engine is modelled for any surfaces and objects, see below).

### Check against the project's tests

The definitions of `Model/` were extracted to OCaml once, outside this directory, with
`R` realised by floating point numbers, and run on the inputs of the project's own unit
tests (all test files except the two that need a window; `move_vertices`, which the
library does not have, is left out). The results of 176 of the 177 assertions tried are
those the tests ask for, within the tests' tolerance. The other one is in
`test_face_set.py`: rays that meet two faces exactly on their common edge, where
rounding decides whether both faces are hit; on real numbers they are. Nothing that is
proved depends on this.

## Modelling decisions

### Numbers

Python floats are exact real numbers (Coq `R`), with `inf`, `-inf` and `nan` added
where the code can produce and use them (`num`: intersection parameters and what is
computed from them). Rounding, overflow and signed zero are not modelled, so a claim
that holds here can fail in floating point where it depends on a cancellation;
thresholds like `1e-10` are modelled as written. Comparisons are the classical
decisions of `R`. Numbers given by the caller are floats: integer arrays, for which
Python 2 divides as integers, are not modelled. Counts and indices are natural
numbers; negative indexing is not modelled.

Where Python would go on with uninitialised memory (`N.empty`) or NaN coordinates,
either the contents are an arbitrary parameter (`sc_junk`: what `N.empty` returns to
the constructors of frames), or the outcome is `OutOfModel`. The theorems show that
`OutOfModel` is not reached, or have its absence among their hypotheses.

### Arrays

A numpy array whose last axis ranges over rays is a list with one entry per ray.
Masks, index arrays, `nonzero`, `delete`, `hstack`, masked assignment are functions
on lists; an index out of range is `IndexError`. Broadcasting of scalars is written
out where the code uses it. A row or a slice of an array used only for reading is a
list of its own.

Arrays have identities, so that two names can stand for one array and a write is
seen through both, in the models of frames (`Model/Assembly.v`: `_transform`,
`_loc`, `_rot`, `_temp_frame`), in `Model/BundleHeap.v` (ray bundles) and in
`Model/HeapTrace.v` (traces of library surfaces; there the arrays that nothing keeps
after an iteration - normals, local coordinates, parameters, masks - are values). In
all other files arrays are values. C83 relates the trace with identities to the trace
on values, so what C07-C18 say of values holds of it too.

Surfaces and their geometry managers carry the data of an iteration. In
`Model/Surface.v` each surface is a value with its own data. `Model/SharingEngine.v`
has them as objects that can be shared; C98 relates the two: they agree when each surface
has its own geometry manager, as in every constructor of `models/`, and not otherwise.

### Exceptions

A function that raises returns `Err` with the exception. In the models of frames,
scenes and bundles with identities a call that raises keeps the changes made before
the exception. In the engine, the optics managers and the viewers the partial effect
of a call that raises is not represented; the claims about them are about calls that
return, and C73 says when a trace does.

### Programs with frames and assemblies

Nodes (surfaces, boundaries, objects, assemblies) have identities and may be shared.
Their lists of children are values: a program that keeps the list it gave to a
constructor and changes it later is not represented. `transform_children` recurses
with a depth limit, as Python does; a deeper assembly raises `RecursionLimit`.

The claims for all histories of calls (C53, C54, C74, C75) are about programs that
do not write into the arrays they handed to or got from the library ("careful"
programs: `sole` and the view conditions in `Spec/FrameSpec.v`). What happens
otherwise is shown by `c53_shared_transform_refuted` and by C81, where the library
itself hands one array to two frames.

### The engine

`ray_tracer` is modelled for arbitrary surfaces (a state per surface and the four
protocol calls) and arbitrary objects (their two methods). What the surfaces must do
for C07-C18 is a contract proved for each geometry manager of the library and each
optics manager (`Proof/LibraryTop.v`). Surfaces of a library assembly are found by
walking the assembly (`Model/Scene.v`), so the claims reach from the constructors to
the recorded tree (C62, C69, C73, C78).

Attributes that `done` leaves behind and no later call can read are not represented.

### Optics

Random numbers are an arbitrary sequence, with the range numpy documents as the
hypothesis `fair` where it matters. Accountants are known by a number, so that
several surfaces can share one. The functions of `optics.py` work column by column
and are modelled for one ray.

### Geometry

For C21-C35 frames are rigid (orthogonal rotation, last row 0 0 0 1). The hemisphere
and the bounded cut sphere pick roots in row order for the whole bundle; C26 and C27
say for exactly which bundles the answers are right. The bounding volume of a cut
sphere is a value: its frame at the time of the call.

Meshes (C37) are modelled for positive resolutions as lists of rows of points.

### Collectors

`aim_to_sun`, `radial_stagger`, the histogram and the constructors of mirrors,
homogenizers, receivers, dishes, lenses and triangulated surfaces are modelled as
programs over the heap of frames. `N.arange` with a zero step raises
`ZeroDivisionError`. In `N.histogram2d` the rounding of the last edge to a number of
decimals is left out. `get_external_dimensions` is modelled as a function of the
constructor's arguments (nothing writes `_ext_dims` later). C80 is
paraxial optics: the limit of the height of exit rays over the height of entering
rays.

### Viewers

The plotting library is a list of drawings with identities; removing a drawing that
is gone does nothing. What the viewer's own trace does to accounts is not kept. Qt
items are numbered values with text; signals call the connected slots in order;
connections to items that the widget has dropped stay. Flags and expansion of items
are not modelled.

## Per property

| id | how it is modelled and proved |
|----|------------------------------|
| C01-C06 | `RayBundle` as a record of optional arrays and named extra arrays; lists, induction on histories |
| C07, C08, C13, C14, C16 | `intersect_ray` for arbitrary surfaces; matrix of extended numbers, case analysis. C08 and C13 refuted by witness, proved without ties / without parameters near the cut-off |
| C09-C12, C15, C17, C18, C73 | `ray_tracer`: invariant by induction on iterations, for surfaces that meet a contract, then the contract for library surfaces |
| C19, C20 | `RayTree`; C20 refuted |
| C21-C24 | flat geometry managers on bundles; linear algebra over R |
| C25-C32 | `QuadricGM` on bundles with `num`; discriminants, then the trimming of each class |
| C33, C34 | normals and points after `select_rays` |
| C35 | the bundle function is the map of a one-ray function; refuted for the hemisphere |
| C36 | bounding volumes |
| C37 | mesh generators as lists of rows of points; distance of each surface point to the mesh, counts |
| C38-C43, C48 | `optics.py` |
| C42-C47, C49 | optics managers on bundles; C46 by induction on the recorded history |
| C50-C52 | rotations with sin and cos |
| C53-C55, C74, C75 | heap of arrays and nodes; invariant over histories of calls; global frames as products along paths |
| C56-C58 | listing order, ownership table, local coordinates |
| C59-C61 | sources, for every sequence of draws |
| C62-C65, C68, C69, C76, C81 | `models/` as programs over scenes; reachability facts carried through each constructor |
| C66, C67, C80 | triangulated surface, spherical lens (construction; paraxial limit by derivatives) |
| C70-C72 | viewers; invariants over sequences of calls |
| C77 | dish optics from construction to the outgoing ray |
| C78, C79 | accounts and energy balance after a trace; induction on iterations |
| C82 | ray bundles with array identities; which methods share storage |
| C83 | traces with array identities; agreement with the model on values; which arrays a trace shares |
| C84 | every point where a ray meets a surface of the collector is in a cylinder |
| C85 | the tower plant of `examples/`, from building to the receiver's account; two iterations of the engine over a field |
| C86 | the flux map of the tower plant: source, reset, trace and histogram in one program; the map's content related to the levels of the trace, its total to the rays sent |
| C87 | the way of axial light through a dish collector; a general lemma follows every ray of a bundle through all iterations of the engine (Proof/FateProof.v), the geometry of the box gives the steps (Proof/BoxWay.v) |
| C90 | as C87, which is derived from it, for light from any direction: rays may also escape, end outside the box or fade |
| C91 | the program of `test_case.py` from building to the map; C90 applied to the sunlight it sends, with bounds for the focal spot (Proof/SpotProof.v) |
| C92 | the scene of `gui.py` and its sliders: C71 for the scene, and a general lemma that turns the way of every ray into the lines that are drawn (Proof/PathProof.v) |
| C93 | the scene of `parabolic_dish_gui.py`, opened and changed any number of times: C71 for the scene, C68 for the dish, and a lemma on which energies occur in a trace, by which every drawn ray is whole or spent (Proof/EnergyKindProof.v) |
| C94 | the scene of `tower_gui.py`, opened, aimed and changed any number of times: C71 for the scene, C64 and C85 for the field, C86 for the map; each heliostat is turned again from wherever it pointed |
| C95 | the contract of every optics manager carried through the reindexing of surfaces, the engine's emissions, concatenation and sorting by energy, for one level and then along the tree (Proof/LawProof.v) |
| C96 | C95 and the tangential form of both laws of optics; the fields of rigid motions are linear in the position, so they do not change along a ray in its own direction (Proof/SymmetryProof.v) |
| C97 | C95 (with the additional properties of each ray) by induction over the levels (Proof/LineageProof.v) |
| C98 | a simulation of the engine on references by the engine on values, for any protocol in which a call changes one surface only (Proof/SharingProof.v) |
| C99 | by induction on the levels: C95 determines each level up to order, and reports and normals are functions of ray and surface (Proof/OrderProof.v) |
| C100 | induction on the levels with C95 and C63 in the coordinates of the box; the exact unfolding is the invariant, the number of reflections follows from it (Proof/KaleidoProof.v); a ray between the walls is at a wall only once on its way, so the wall ahead is met first (Proof/KaleidoMeets.v) |
| C101 | both laws of optics hold of the reversed directions with the same reflectance (C41), meeting by meeting along the way; C95 gives the ways of a trace, and the normal at a point and the law determine what is sent on (Proof/BackProof.v) |
| C102 | what a surface reports about a ray is the first point of its shape ahead (C21–C32), the engine takes the least report that is not discarded (C07), and the tree records just that (C09, C14) (Proof/SightProof.v) |
| C103 | induction on the way: what is in clear sight gets the least report (C102) and is met first, the level below has the child that C95 demands, and the law at the meeting leaves no choice what it is (C101) (Proof/FoundProof.v) |
| C104 | each meeting turned round is lawful with the same fraction (C101), each piece of the way is as open backwards as forwards because the conditions on almost parallel rays do not depend on the sense of the ray; then C103 finds both ways (Proof/ReturnProof.v) |
| C105 | induction on the level of the trace: a ray reflected at a place on a mirror's plane is the image of the ray that would have gone on, because the place is its own image (Proof/ImageProof.v); pairs and corners by vector algebra |
| C106 | an iteration reads neither the tree nor the record; with ordinary objects the ownership and relevancy it leaves are those a new trace starts with (Proof/ResumeProof.v) |
| C107 | further rows of parameters that are nowhere least leave the minima and the other rows' flags alone (Proof/HiddenRows.v); the two runs go side by side (Proof/HiddenProof.v), for any surfaces; what library surfaces answer is Proof/SightProof.v (Proof/HiddenTop.v) |
| C108 | C95 gives each ray at most 1-a of its parent's energy, C12 says when a trace stops (Proof/FadeProof.v) |
| C109 | The chords give a way of light with clear sight, which C103 finds; the ledger of C79 has nothing unmet (Proof/BallProof.v, BallTop.v) |
| C110 | The winding gives a way of light with clear sight, which C103 finds; past the end no surface is in the way (Proof/TubeProof.v, TubeTop.v) |
| C111 | The equal distance from focus and directrix gives the one meeting and its mirror image; C103 finds it and C102 shows that nothing is met after (Proof/BeamProof.v) |
| C112 | The angle of incidence is the same at every end of a chord, so the reflectance is the same (C41: it is that of the reversed ray); C103 finds each meeting, induction on the number of reflections; C102 and the uniqueness of mirrored and refracted directions show that there are no other rays (Proof/DropProof.v, Proof/DropTop.v) |
| C113 | The rays inside in closed form; as in C112 the share is the same each time, and C103 finds each meeting, by induction on the number of reflections (Proof/GlassProof.v, Proof/GlassTop.v) |
| C88 | a simulation of the engine by itself under a rigid motion of points and directions and a factor on energies (Proof/MoveBundle.v for the engine, Proof/MoveGeom.v for the geometry managers, Proof/MoveOptics.v for optics and surfaces) |
| C89 | the branches of the model that raise, one by one; calls outside the protocol of a geometry manager whose outcome depends on leftovers are outside the model |
