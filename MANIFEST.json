{
 "claims": [
  {
   "property": "C01",
   "status": "proved",
   "theorems": [
    "c01_inherit_values",
    "c01_inherit_error"
   ],
   "note": ""
  },
  {
   "property": "C02",
   "status": "proved",
   "theorems": [
    "c02_add",
    "c02_add_assoc"
   ],
   "note": ""
  },
  {
   "property": "C03",
   "status": "proved",
   "theorems": [
    "c03_concatenate",
    "c03_concatenate_fails",
    "c03_concatenate_nothing"
   ],
   "note": ""
  },
  {
   "property": "C04",
   "status": "proved",
   "theorems": [
    "c04_delete",
    "c04_delete_partition"
   ],
   "note": ""
  },
  {
   "property": "C05",
   "status": "proved",
   "theorems": [
    "c05_equal_lengths"
   ],
   "note": ""
  },
  {
   "property": "C06",
   "status": "proved",
   "theorems": [
    "c06_set_selected",
    "c06_get_selected",
    "c06_set_named",
    "c06_missing",
    "c06_unset",
    "c06_has_property",
    "c06_set_get"
   ],
   "note": ""
  },
  {
   "property": "C07",
   "status": "proved",
   "theorems": [
    "c07_first_surface"
   ],
   "note": ""
  },
  {
   "property": "C08",
   "status": "proved",
   "theorems": [
    "c08_one_surface_without_ties",
    "c08_one_surface_refuted"
   ],
   "note": "refuted as expected: two surfaces in the same place both get the ray; two marked surfaces always report the same parameter"
  },
  {
   "property": "C09",
   "status": "proved",
   "theorems": [
    "c09_tree_geometry",
    "c09_tree_complete"
   ],
   "note": ""
  },
  {
   "property": "C10",
   "status": "proved",
   "theorems": [
    "c10_levels_ordered"
   ],
   "note": ""
  },
  {
   "property": "C11",
   "status": "proved",
   "theorems": [
    "c11_weak_rays_not_traced"
   ],
   "note": ""
  },
  {
   "property": "C12",
   "status": "proved",
   "theorems": [
    "c12_bounded"
   ],
   "note": ""
  },
  {
   "property": "C13",
   "status": "proved",
   "theorems": [
    "c13_independent_given_cutoff",
    "c13_independence_refuted"
   ],
   "note": "refuted as expected; with library geometry (Hemisphere and bounded CutSphere excepted) the cut-off is the only coupling between rays"
  },
  {
   "property": "C14",
   "status": "proved",
   "theorems": [
    "c14_ownership",
    "c14_library_objects"
   ],
   "note": ""
  },
  {
   "property": "C15",
   "status": "proved",
   "theorems": [
    "c15_energy_not_created"
   ],
   "note": ""
  },
  {
   "property": "C16",
   "status": "proved",
   "theorems": [
    "c16_engine_raises",
    "c16_library_params_proper",
    "c16_hemisphere_negative_refuted"
   ],
   "note": "both halves; for Hemisphere and bounded CutSphere a negative parameter is exhibited"
  },
  {
   "property": "C17",
   "status": "proved",
   "theorems": [
    "c17_tree_false",
    "c17_tree_true",
    "c17_no_iteration_raises",
    "c17_truthy"
   ],
   "note": ""
  },
  {
   "property": "C18",
   "status": "proved",
   "theorems": [
    "c18_surfaces_restored",
    "c18_trace_again"
   ],
   "note": ""
  },
  {
   "property": "C19",
   "status": "proved",
   "theorems": [
    "c19_ordered_parents",
    "c19_parents_missing",
    "c19_traced_levels"
   ],
   "note": ""
  },
  {
   "property": "C20",
   "status": "proved",
   "theorems": [
    "c20_history_refuted",
    "c20_default_level_refuted",
    "c20_source_left_out"
   ],
   "note": "refuted as expected: every call raises; with self restored the default level is off by one and the source ray is left out"
  },
  {
   "property": "C21",
   "status": "proved",
   "theorems": [
    "c21_infinite_plane",
    "c21_unique"
   ],
   "note": ""
  },
  {
   "property": "C22",
   "status": "proved",
   "theorems": [
    "c22_rect_plate",
    "c22_rejected",
    "c22_accepted"
   ],
   "note": ""
  },
  {
   "property": "C23",
   "status": "proved",
   "theorems": [
    "c23_round_plate",
    "c23_rejected"
   ],
   "note": ""
  },
  {
   "property": "C24",
   "status": "proved",
   "theorems": [
    "c24_triangle",
    "c24_degenerate_is_plane"
   ],
   "note": "corners independent and in the local XY plane; for dependent corners the whole plane is reported (c24_degenerate_is_plane)"
  },
  {
   "property": "C25",
   "status": "proved",
   "theorems": [
    "c25_sphere",
    "c25_rejected"
   ],
   "note": ""
  },
  {
   "property": "C26",
   "status": "proved",
   "theorems": [
    "c26_hemisphere",
    "c26_bundle"
   ],
   "note": "single rays, and exactly which bundles are answered correctly (c26_bundle: iff entering rays come first)"
  },
  {
   "property": "C27",
   "status": "proved",
   "theorems": [
    "c27_cut_sphere",
    "c27_bundle",
    "c27_uncut",
    "c27_cylinder_bound_fails"
   ],
   "note": "sphere, plane and no bounding volume, single rays and exactly which bundles (c27_bundle); with a BoundaryCylinder the call raises ValueError"
  },
  {
   "property": "C28",
   "status": "proved",
   "theorems": [
    "c28_cylinder",
    "c28_nearly_parallel_refuted"
   ],
   "note": "axial rays not lying in the wall, or squared transverse component above 1e-10; refuted for nearly axial rays"
  },
  {
   "property": "C29",
   "status": "proved",
   "theorems": [
    "c29_finite_cylinder"
   ],
   "note": "same directions as C28"
  },
  {
   "property": "C30",
   "status": "proved",
   "theorems": [
    "c30_paraboloid",
    "c30_rejected",
    "c30_nearly_parallel_refuted"
   ],
   "note": "axial directions or A above 1e-10; refuted for nearly axial rays"
  },
  {
   "property": "C31",
   "status": "proved",
   "theorems": [
    "c31_parabolic_dish",
    "c31_accepted"
   ],
   "note": ""
  },
  {
   "property": "C32",
   "status": "proved",
   "theorems": [
    "c32_hexagonal_dish",
    "c32_accepted"
   ],
   "note": ""
  },
  {
   "property": "C33",
   "status": "proved",
   "theorems": [
    "c33_normals"
   ],
   "note": ""
  },
  {
   "property": "C34",
   "status": "proved",
   "theorems": [
    "c34_points",
    "c34_select_total"
   ],
   "note": ""
  },
  {
   "property": "C35",
   "status": "proved",
   "theorems": [
    "c35_independent",
    "c35_hemisphere_refuted"
   ],
   "note": "proved for all classes except Hemisphere and bounded CutSphere; refuted for Hemisphere"
  },
  {
   "property": "C36",
   "status": "proved",
   "theorems": [
    "c36_sphere",
    "c36_plane",
    "c36_cylinder_fails",
    "c36_cylinder_refuted",
    "c36_cylinder_axis",
    "c36_cylinder_answer",
    "c36_cylinder_rotation_refuted",
    "c36_bounding_rect",
    "c36_bounding_rect_refuted",
    "c36_bounding_rect_moved_fails"
   ],
   "note": "sphere and plane proved; cylinder refuted; bounding rectangle proved for a centre on z=0, refuted elsewhere, fails after a transform"
  },
  {
   "property": "C37",
   "status": "proved",
   "theorems": [
    "c37_rectangle",
    "c37_round",
    "c37_round_refuted",
    "c37_triangle",
    "c37_coarse_triangle",
    "c37_sphere",
    "c37_hemisphere",
    "c37_hemisphere_refuted",
    "c37_cut_sphere",
    "c37_cut_sphere_refuted",
    "c37_cylinder",
    "c37_cylinder_refuted",
    "c37_no_diameter",
    "c37_dish",
    "c37_no_mesh",
    "c37_rectangle_points",
    "c37_round_points",
    "c37_sphere_points",
    "c37_hemisphere_points",
    "c37_cylinder_points",
    "c37_dish_points",
    "c37_triangle_points",
    "c37_surface"
   ],
   "note": "positive resolutions; overshoots, the cut sphere and coarse hemispheres are exhibited by the _refuted theorems"
  },
  {
   "property": "C38",
   "status": "proved",
   "theorems": [
    "c38_reflection"
   ],
   "note": ""
  },
  {
   "property": "C39",
   "status": "proved",
   "theorems": [
    "c39_c40_refractions",
    "c39_snell",
    "c39_snell_unique"
   ],
   "note": ""
  },
  {
   "property": "C40",
   "status": "proved",
   "theorems": [
    "c39_c40_refractions",
    "c40_total_reflection",
    "c40_incidence_exists"
   ],
   "note": ""
  },
  {
   "property": "C41",
   "status": "proved",
   "theorems": [
    "c41_fresnel",
    "c41_undefined"
   ],
   "note": "where the reflectance is defined; along a surface between equal media numpy divides 0 by 0 (c41_undefined)"
  },
  {
   "property": "C42",
   "status": "proved",
   "theorems": [
    "c42_refractive_surface"
   ],
   "note": ""
  },
  {
   "property": "C43",
   "status": "proved",
   "theorems": [
    "c43_toggle"
   ],
   "note": ""
  },
  {
   "property": "C44",
   "status": "proved",
   "theorems": [
    "c44_reflective"
   ],
   "note": ""
  },
  {
   "property": "C45",
   "status": "proved",
   "theorems": [
    "c45_absorber"
   ],
   "note": ""
  },
  {
   "property": "C46",
   "status": "proved",
   "theorems": [
    "c46_all_hits",
    "c46_balanced",
    "c46_one_sided_refuted"
   ],
   "note": "balance proved for both receiver classes; refuted for an AbsorptionAccountant around an AbsorberReflector, a combination no class of the library makes"
  },
  {
   "property": "C47",
   "status": "proved",
   "theorems": [
    "c47_lambertian"
   ],
   "note": ""
  },
  {
   "property": "C48",
   "status": "proved",
   "theorems": [
    "c48_hartmann_refuted",
    "c48_computed"
   ],
   "note": "refuted as expected: the last term is dropped"
  },
  {
   "property": "C49",
   "status": "proved",
   "theorems": [
    "c49_empty_selection_refuted"
   ],
   "note": "refuted as expected: AttributeError"
  },
  {
   "property": "C50",
   "status": "proved",
   "theorems": [
    "c50_general_axis",
    "c50_main_axes"
   ],
   "note": ""
  },
  {
   "property": "C51",
   "status": "proved",
   "theorems": [
    "c51_generate_transform",
    "c51_translate",
    "c51_products"
   ],
   "note": ""
  },
  {
   "property": "C52",
   "status": "proved",
   "theorems": [
    "c52_rotation_to_z",
    "c52_first_column"
   ],
   "note": ""
  },
  {
   "property": "C53",
   "status": "proved",
   "theorems": [
    "c53_in_sync",
    "c53_set_location",
    "c53_set_rotation",
    "c53_set_transform",
    "c53_bad_location",
    "c53_bad_rotation",
    "c53_new_frame",
    "c53_new_object",
    "c53_bad_transform_refuted",
    "c53_shared_transform_refuted",
    "c53_written_location_refuted",
    "c53_written_transform"
   ],
   "note": "proved for transforms and locations of the right shape and arrays not shared between parts; a badly shaped transform raises IndexError and loses the old one, and two parts given one array get out of step (_refuted theorems); so do the location and the array it was given from once that array is written into"
  },
  {
   "property": "C54",
   "status": "proved",
   "theorems": [
    "c54_transform_children",
    "c54_succeeds",
    "c54_set_location",
    "c54_set_rotation",
    "c54_set_transform",
    "c54_setters_succeed",
    "c54_add_surface",
    "c54_add_boundary",
    "c54_well_placed_unique"
   ],
   "note": ""
  },
  {
   "property": "C55",
   "status": "proved",
   "theorems": [
    "c55_nested_refuted",
    "c55_repaired"
   ],
   "note": "refuted as expected, with a history as witness; what the frames are instead is proved for every history"
  },
  {
   "property": "C56",
   "status": "proved",
   "theorems": [
    "c56_get_objects",
    "c56_get_surfaces",
    "c56_ownership"
   ],
   "note": ""
  },
  {
   "property": "C57",
   "status": "proved",
   "theorems": [
    "c57_add_object",
    "c57_add_assembly"
   ],
   "note": ""
  },
  {
   "property": "C58",
   "status": "proved",
   "theorems": [
    "c58_global_to_local"
   ],
   "note": ""
  },
  {
   "property": "C59",
   "status": "proved",
   "theorems": [
    "c59_pillbox",
    "c59_pillbox_draws"
   ],
   "note": ""
  },
  {
   "property": "C60",
   "status": "proved",
   "theorems": [
    "c60_solar_disk",
    "c60_solar_disk_draws"
   ],
   "note": ""
  },
  {
   "property": "C61",
   "status": "proved",
   "theorems": [
    "c61_square_bundle",
    "c61_counts",
    "c61_square",
    "c61_two_rays_refuted",
    "c61_width_refuted"
   ],
   "note": "refuted as expected for numbers that are not squares and for the width; the rest proved for squares"
  },
  {
   "property": "C62",
   "status": "proved",
   "theorems": [
    "c62_mirror",
    "c62_receiver",
    "c62_surfaces",
    "c62_untested"
   ],
   "note": ""
  },
  {
   "property": "C63",
   "status": "proved",
   "theorems": [
    "c63_homogenizer"
   ],
   "note": ""
  },
  {
   "property": "C64",
   "status": "proved",
   "theorems": [
    "c64_built",
    "c64_aimed",
    "c64_aim_height",
    "c64_moved",
    "c64_moved_refuted"
   ],
   "note": "for a field in any state; refuted for a field moved as a whole before aiming, whose own transform aim_to_sun ignores"
  },
  {
   "property": "C65",
   "status": "proved",
   "theorems": [
    "c65_stagger",
    "c65_clockwise_refuted"
   ],
   "note": "positive spacings; the documented clockwise sense is refuted"
  },
  {
   "property": "C66",
   "status": "proved",
   "theorems": [
    "c66_faces",
    "c66_any_faces",
    "c66_misplaced_refuted",
    "c66_bad_index"
   ],
   "note": "refuted as expected after a degenerate face; proved when no face is degenerate"
  },
  {
   "property": "C67",
   "status": "proved",
   "theorems": [
    "c67_lens",
    "c67_vertex",
    "c67_planar_front_refuted",
    "c67_planar_back",
    "c67_planar_back_refuted",
    "c67_one_ray"
   ],
   "note": "refuted as expected for planar faces; proved for curved ones"
  },
  {
   "property": "C68",
   "status": "proved",
   "theorems": [
    "c68_measures",
    "c68_limit_refuted",
    "c68_receiver",
    "c68_minidish",
    "c68_petal",
    "c68_standard",
    "c68_aspect_refuted"
   ],
   "note": "refuted as expected: virt_sources at its documented limit divides by zero, and the aspect changes y; the rest proved"
  },
  {
   "property": "C69",
   "status": "proved",
   "theorems": [
    "c69_histogram",
    "c69_minidish",
    "c69_petal",
    "c69_bins"
   ],
   "note": "for hits recorded by the accountant of the receiver; edges, every cell and the total"
  },
  {
   "property": "C70",
   "status": "proved",
   "theorems": [
    "c70_drawn",
    "c70_faithful",
    "c70_trace",
    "c70_refuted",
    "c70_selector_refuted"
   ],
   "note": "refuted as expected, in general and for selectors; proved for every trace with energy threshold zero"
  },
  {
   "property": "C71",
   "status": "proved",
   "theorems": [
    "c71_history",
    "c71_control",
    "c71_update",
    "c71_replace_refuted",
    "c71_cleared_refuted",
    "c71_undrawn_refuted",
    "c71_source_refuted"
   ],
   "note": "the four expected failures are proved for all histories; the rest proved for histories that avoid them"
  },
  {
   "property": "C72",
   "status": "proved",
   "theorems": [
    "c72_listed",
    "c72_renamed",
    "c72_name_kept",
    "c72_top_refuted",
    "c72_twice_refuted"
   ],
   "note": "refuted as expected for the top assembly and for parts listed twice; the rest proved"
  },
  {
   "property": "C73",
   "status": "proved",
   "theorems": [
    "c73_tracing_answers",
    "c73_objects_answer"
   ],
   "note": ""
  },
  {
   "property": "C74",
   "status": "proved",
   "theorems": [
    "c74_surface",
    "c74_boundary",
    "c74_sphere",
    "c74_object",
    "c74_assembly"
   ],
   "note": ""
  },
  {
   "property": "C75",
   "status": "proved",
   "theorems": [
    "c75_set_transform",
    "c75_set_transform_refuted",
    "c75_set_location",
    "c75_set_rotation",
    "c75_new_surface"
   ],
   "note": "refuted as expected; when the frame does and does not change is proved for every history"
  },
  {
   "property": "C76",
   "status": "proved",
   "theorems": [
    "c76_clockwise",
    "c76_counterclockwise_refuted"
   ],
   "note": "refuted as expected; the clockwise reading is proved"
  },
  {
   "property": "C77",
   "status": "proved",
   "theorems": [
    "c77_round",
    "c77_hexagonal"
   ],
   "note": ""
  },
  {
   "property": "C78",
   "status": "proved",
   "theorems": [
    "c78_accounts",
    "c78_all_hits",
    "c78_others"
   ],
   "note": ""
  },
  {
   "property": "C79",
   "status": "proved",
   "theorems": [
    "c79_sent_on",
    "c79_ledger",
    "c79_receiver_bound"
   ],
   "note": ""
  },
  {
   "property": "C80",
   "status": "proved",
   "theorems": [
    "c80_focus",
    "c80_docstring_refuted"
   ],
   "note": "refuted as expected; where the focus is instead is proved"
  },
  {
   "property": "C81",
   "status": "proved",
   "theorems": [
    "c81_receiver_refuted",
    "c81_minidish_refuted"
   ],
   "note": "refuted as expected, for every collector and for the minidish"
  },
  {
   "property": "C82",
   "status": "proved",
   "theorems": [
    "c82_inherit",
    "c82_delete_rays",
    "c82_add",
    "c82_concatenate_rays",
    "c82_empty_bund",
    "c82_inherit_values",
    "c82_set_entries",
    "c82_set_whole",
    "c82_get",
    "c82_get_selected",
    "c82_inherit_default",
    "c82_given_arrays",
    "c82_inherit_default_refuted",
    "c82_given_arrays_refuted"
   ],
   "note": "refuted as expected for the default selector and for arrays passed in; the rest proved"
  },
  {
   "property": "C83",
   "status": "proved",
   "theorems": [
    "c83_trace",
    "c83_history",
    "c83_source",
    "c83_source_refuted"
   ],
   "note": "refuted as expected for the source bundle; the rest proved. Normals, local coordinates and masks are values in this model."
  },
  {
   "property": "C84",
   "status": "proved",
   "theorems": [
    "c84_minidish",
    "c84_petal",
    "c84_standard",
    "c84_minidish_refuted",
    "c84_petal_refuted"
   ],
   "note": "refuted as expected for the exact cylinder and for a high rim; the rest proved"
  },
  {
   "property": "C85",
   "status": "proved",
   "theorems": [
    "c85_built",
    "c85_aimed",
    "c85_free",
    "c85_example_built",
    "c85_example_aimed",
    "c85_example_replaced"
   ],
   "note": "building and aiming for any plant with free ways; that the example has free ways is c85_free"
  },
  {
   "property": "C86",
   "status": "proved",
   "theorems": [
    "c86_map",
    "c86_apart",
    "c86_example_map"
   ],
   "note": "the program of the button, with the numbers of rays, bins and iterations as parameters; c86_example_map is the example's field"
  },
  {
   "property": "C87",
   "status": "proved",
   "theorems": [
    "c87_minidish",
    "c87_petal",
    "c87_standard",
    "c87_folds",
    "c87_energy",
    "c87_edge_refuted"
   ],
   "note": "refuted as expected for the label of the example program; the rest proved for light whose way is clear in the sense of Spec/DishSpec.v"
  },
  {
   "property": "C88",
   "status": "proved",
   "theorems": [
    "c88_moved",
    "c88_objects",
    "c88_scene",
    "c88_hits",
    "c88_local",
    "c88_brighter",
    "c88_random_refuted",
    "c88_enlarged_refuted"
   ],
   "note": "refuted as expected for turned scattering surfaces and for enlarged scenes; the rest proved"
  },
  {
   "property": "C89",
   "status": "proved",
   "theorems": [
    "c89_set",
    "c89_get",
    "c89_abstract",
    "c89_protocol",
    "c89_refractions",
    "c89_accountless",
    "c89_square",
    "c89_drawn",
    "c89_selector",
    "c89_containers",
    "c89_no_surfaces"
   ],
   "note": "the case of an index array that does not fit together with the wrong number of values is left out: numpy may raise either exception"
  },
  {
   "property": "C90",
   "status": "proved",
   "theorems": [
    "c90_minidish",
    "c90_petal",
    "c90_standard",
    "c90_axial",
    "c90_energy"
   ],
   "note": "for light whose way is clear in the sense of Spec/SunSpec.v and that meets the dish at most once"
  },
  {
   "property": "C91",
   "status": "proved",
   "theorems": [
    "c91_map",
    "c91_aligned",
    "c91_caught",
    "c91_spot",
    "c91_no_spill",
    "c91_ring",
    "c91_folded",
    "c91_shadow",
    "c91_default"
   ],
   "note": "the contents of the map for light whose way is clear in the sense of Spec/SunSpec.v; finishing, shape, alignment and the bound on the energy without that"
  },
  {
   "property": "C92",
   "status": "proved",
   "theorems": [
    "c92_scene",
    "c92_paths"
   ],
   "note": "source positions clear of both mirrors by more than the tolerance of the engine (1e-6); the window is any world that shows the assembly that was built"
  },
  {
   "property": "C93",
   "status": "proved",
   "theorems": [
    "c93_open",
    "c93_change",
    "c93_always",
    "c93_measures"
   ],
   "note": "fewer than 20000 rays, so that each is above the threshold of the scene; nothing made before has the attribute colour of a surface made later; the layout of the window and the background are left out"
  },
  {
   "property": "C94",
   "status": "proved",
   "theorems": [
    "c94_open",
    "c94_sun",
    "c94_replace",
    "c94_always",
    "c94_lines",
    "c94_map"
   ],
   "note": "negative distances are not covered; nothing made before has the attribute colour of a surface made later; the layout of the window, the camera and the background are left out"
  },
  {
   "property": "C95",
   "status": "proved",
   "theorems": [
    "c95_laws"
   ],
   "note": "the random numbers drawn are at least 0 and less than 1 (needed for diffuse surfaces only); their additional properties are the subject of C97"
  },
  {
   "property": "C96",
   "status": "proved",
   "theorems": [
    "c96_conserved",
    "c96_surfaces",
    "c96_revolution",
    "c96_pipe",
    "c96_layers"
   ],
   "note": "for hemispheres and cut spheres the whole sphere has the symmetry; paraboloids of revolution only; a bundle without refractive indices counts as having index 1"
  },
  {
   "property": "C97",
   "status": "proved",
   "theorems": [
    "c97_lineage"
   ],
   "note": "additional properties are compared entry by entry; the energies of the source are not negative (library_source)"
  },
  {
   "property": "C98",
   "status": "proved",
   "theorems": [
    "c98_objects",
    "c98_shared_refuted"
   ],
   "note": "refuted as expected for a shared manager (c98_shared_refuted), proved for surfaces with managers of their own. Optics managers are told apart by their accounts; they keep nothing else."
  },
  {
   "property": "C99",
   "status": "proved",
   "theorems": [
    "c99_order",
    "c99_plain",
    "c99_accounts"
   ],
   "note": "a ray that meets two surfaces at once is sent on by both; with one-sided objects this is excluded. The random numbers of the two traces may differ."
  },
  {
   "property": "C100",
   "status": "proved",
   "theorems": [
    "c100_homogenizer"
   ],
   "note": "a ray in a corner may be sent on by both walls, with one reflection counted each time; the theorem speaks of both rays"
  },
  {
   "property": "C101",
   "status": "proved",
   "theorems": [
    "c101_way",
    "c101_trace",
    "c101_sent_back",
    "c101_determined"
   ],
   "note": "that nothing stands in the way on the way back is not claimed: the straight lines are the same, but a surface nearer than the cut-off of a geometry manager or closed to the ray by its object may be met one way and not the other; c101_sent_back takes from the trace which surface is met first"
  },
  {
   "property": "C102",
   "status": "proved",
   "theorems": [
    "c102_sight",
    "c102_plain",
    "c102_caught"
   ],
   "note": "hemispheres and cut spheres may stand in the scene for the claim about children, which then says nothing about them; the claim about rays without children takes scenes without them"
  },
  {
   "property": "C103",
   "status": "proved",
   "theorems": [
    "c103_found",
    "c103_to_and_fro"
   ],
   "note": "for objects that try their rays with every surface; hemispheres and cut spheres are left out (C26, C27), as are Lambertian meetings, whose direction is drawn at random"
  },
  {
   "property": "C104",
   "status": "proved",
   "theorems": [
    "c104_there_and_back",
    "c104_open_back"
   ],
   "note": "same restrictions as C101 and C103; the place the first trace starts from is reached in direction, the second trace is followed to the first surface on the way"
  },
  {
   "property": "C105",
   "status": "proved",
   "theorems": [
    "c105_images",
    "c105_rigid",
    "c105_two_mirrors",
    "c105_corner",
    "c105_corner_trace"
   ],
   "note": "c105_images is for every chain of mirrors the trace goes through; the theorems on pairs and corners are about the images of c105_images, c105_corner_trace is about the trace itself. came_by says which planes the ancestors met."
  },
  {
   "property": "C106",
   "status": "proved",
   "theorems": [
    "c106_begins",
    "c106_resumed",
    "c106_resumable"
   ],
   "note": "c106_resumed and c106_resumable are for any implementation of the surface protocol; together they say that the two ways of tracing succeed together. Objects with methods of their own (one-sided mirrors) carry over which surfaces to test, which a new trace does not know; they are left out of the claim on resuming."
  },
  {
   "property": "C107",
   "status": "proved",
   "theorems": [
    "c107_hidden"
   ],
   "note": "The added object comes last in the list; by C99 the order does not matter otherwise. Rays that run almost parallel to a surface (in_the_way in Spec/SightSpec.v) are outside the claim, as in C102."
  },
  {
   "property": "C108",
   "status": "proved",
   "theorems": [
    "c108_fades",
    "c108_enough",
    "c108_ends",
    "c108_least",
    "c108_no_limit"
   ],
   "note": "c108_least and c108_no_limit show that the bound is attained and that a positive limit is needed. Refractive surfaces absorb nothing, so assemblies with them are outside the claim."
  },
  {
   "property": "C109",
   "status": "proved",
   "theorems": [
    "c109_chords",
    "c109_unique",
    "c109_no_escape",
    "c109_receiver"
   ],
   "note": "chord by chord with the exact energies; uniqueness of the chords; energy of the levels and of the account"
  },
  {
   "property": "C110",
   "status": "proved",
   "theorems": [
    "c110_winds",
    "c110_unique",
    "c110_steps"
   ],
   "note": "meeting by meeting with the exact energies and the leaving; uniqueness and heights of the meetings"
  },
  {
   "property": "C111",
   "status": "proved",
   "theorems": [
    "c111_beam",
    "c111_once"
   ],
   "note": "one ray along the axis with its exact start, energy and length of way; nothing more is met; rays past the dish"
  },
  {
   "property": "C112",
   "status": "proved",
   "theorems": [
    "c112_drop",
    "c112_energy"
   ],
   "note": "the ways to the drop and in it are longer than 1e-6; the rays are exhibited with exact places, directions, energies and indices; chords are unique by c109_unique"
  },
  {
   "property": "C113",
   "status": "proved",
   "theorems": [
    "c113_pane"
   ],
   "note": "the ways to the pane and in it are longer than 1e-6, cosines above 1e-10; the rays are exhibited with exact places, directions, energies and indices, and there are no others"
  }
 ]
}