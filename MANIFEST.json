{
 "claims": [
  {
   "property": "C01",
   "status": "proved",
   "theorems": [
    "C01_polar_edges",
    "C01_azimuth_edges",
    "C01_angle_vector"
   ],
   "note": "exact reals"
  },
  {
   "property": "C02",
   "status": "proved",
   "theorems": [
    "C02_fold_phi_canonical",
    "C02_fold_phi_range",
    "C02_needs_divisor"
   ],
   "note": "divisibility is part of the claim; C02_needs_divisor shows it is needed"
  },
  {
   "property": "C03",
   "status": "proved",
   "theorems": [
    "C03_binning_unique",
    "C03_centre_in_own_row"
   ],
   "note": ""
  },
  {
   "property": "C04",
   "status": "proved",
   "theorems": [
    "C04_lambertian"
   ],
   "note": ""
  },
  {
   "property": "C05",
   "status": "partial",
   "theorems": [
    "C05_mirror_specular_partial",
    "C05_mirror_full_circle_refuted"
   ],
   "note": "REFUTED as stated: for phi_symmetry = 2 pi and c_azimuth <= 1 channel 0 is transmitted. Proved for even-fold symmetry, or even azimuth counts in all rings."
  },
  {
   "property": "C06",
   "status": "partial",
   "theorems": [
    "C06_ring_share_linear_partial",
    "C06_cosine_law_refuted",
    "C06_cosine_law_default_spacing_refuted"
   ],
   "note": "REFUTED: the share is cos(theta) dtheta, which lacks the sin(theta) of the projected solid angle."
  },
  {
   "property": "C07",
   "status": "partial",
   "theorems": [
    "C07_incident_azimuth_partial",
    "C07_incident_all_azimuths",
    "C07_phi_at_symmetry_refuted",
    "C07_grazing_refuted"
   ],
   "note": "REFUTED at phi_in = phi_symmetry (next polar ring) and for theta_in = pi/2 with all azimuths (zero power). Proved for every other phi_in >= 0 and theta_in < pi/2."
  },
  {
   "property": "C08",
   "status": "partial",
   "theorems": [
    "C08_relabelling_partial",
    "C08_power_lost_refuted"
   ],
   "note": "REFUTED for odd symmetry m >= 3 with c_azimuth <= 1 (a channel loses its power). Proved for even m, for the full circle with fewer than about 10000 azimuth bins per ring, and for even azimuth counts."
  },
  {
   "property": "C09",
   "status": "proved",
   "theorems": [
    "C09_energy_conserved",
    "C09_odd_symmetry_refuted"
   ],
   "note": "Under relabel_ok (the regimes of C08) and good_direction (the regime of C07), which are part of the claim; C09_odd_symmetry_refuted shows they are needed."
  },
  {
   "property": "C10",
   "status": "proved",
   "theorems": [
    "C10_fractions"
   ],
   "note": "same regimes as C09"
  },
  {
   "property": "C11",
   "status": "proved",
   "theorems": [
    "C11_profile_independent"
   ],
   "note": "same regimes as C09"
  },
  {
   "property": "C12",
   "status": "proved",
   "theorems": [
    "C12_terminates",
    "C12_absorbing_bulk_terminates",
    "C12_lossless_never_stops"
   ],
   "note": ""
  },
  {
   "property": "C13",
   "status": "proved",
   "theorems": [
    "C13_wavelength_independent"
   ],
   "note": "same regimes as C09"
  },
  {
   "property": "C14",
   "status": "proved",
   "theorems": [
    "C14_beer_lambert"
   ],
   "note": ""
  },
  {
   "property": "C15",
   "status": "partial",
   "theorems": [
    "C15_bulk_profile_partial",
    "C15_no_absorption_partial",
    "C15_uninitialised_refuted",
    "C15_thin_bulk_refuted"
   ],
   "note": "REFUTED when the uninitialised memory left by np.divide(where=) is NaN and for a bulk not thicker than the depth spacing. Proved otherwise."
  },
  {
   "property": "C16",
   "status": "partial",
   "theorems": [
    "C16_all_variables_partial",
    "C16_missing_variables_refuted"
   ],
   "note": "REFUTED when no light enters the bulk: only R is returned. Proved when the transmitted power exceeds I_thresh at some wavelength."
  },
  {
   "property": "C17",
   "status": "proved",
   "theorems": [
    "C17_split"
   ],
   "note": ""
  },
  {
   "property": "C18",
   "status": "proved",
   "theorems": [
    "C18_single_computation",
    "C18_next_run_completes"
   ],
   "note": "any history without overwrite, killed anywhere; name clashes with lookup tables excluded (see C20)"
  },
  {
   "property": "C19",
   "status": "partial",
   "theorems": [
    "C19_overwrite_partial",
    "C19_killed_overwrite_refuted"
   ],
   "note": "REFUTED as stated: an overwrite killed between the RT and the A write leaves a mixed pair that is loaded later. Proved for histories without kills and with a fixed profile setting."
  },
  {
   "property": "C20",
   "status": "partial",
   "theorems": [
    "C20_files_distinct",
    "C20_last_saved",
    "C20_existing_kept",
    "C20_lookup_clash_refuted"
   ],
   "note": "proved for redistribution matrices of all names; REFUTED for lookup tables, whose file name <name>.nc can equal a profile file name"
  },
  {
   "property": "C21",
   "status": "partial",
   "theorems": [
    "C21_files_exist_partial",
    "C21_no_rear_refuted",
    "C21_no_profile_refuted"
   ],
   "note": "REFUTED for Mirror/Lambertian above a bulk layer (rear never made) and for prof_layers on methods without profiles; proved otherwise"
  },
  {
   "property": "C22",
   "status": "partial",
   "theorems": [
    "C22_options_respected_partial",
    "C22_stale_refuted",
    "C22_stale_lookup_refuted"
   ],
   "note": "REFUTED: the cache is keyed by name only; proved with overwrite=True or a new directory"
  },
  {
   "property": "C23",
   "status": "proved",
   "theorems": [
    "C23_get_wavelength"
   ],
   "note": ""
  },
  {
   "property": "C24",
   "status": "proved",
   "theorems": [
    "C24_ray_fractions"
   ],
   "note": "All grids, ray lists and garbage; rays exactly vertical, at folded azimuth exactly 0, or absorbed with zero total absorptance are excluded by hypothesis (see C26, C70)."
  },
  {
   "property": "C25",
   "status": "partial",
   "theorems": [
    "C25_empty_column_partial",
    "C25_empty_column_refuted"
   ],
   "note": "REFUTED: np.divide(where=...) without out= leaves uninitialised memory in empty columns. Proved: absorption column is zero, and R/T column is zero when memory was zero or NaN."
  },
  {
   "property": "C26",
   "status": "partial",
   "theorems": [
    "C26_hemisphere_partial",
    "C26_vertical_ray_refuted"
   ],
   "note": "REFUTED for a ray reflected exactly vertically (azimuth 0): counted in the last, downward, bin. Proved otherwise for both sides."
  },
  {
   "property": "C27",
   "status": "proved",
   "theorems": [
    "C27_energy"
   ],
   "note": "interface outcomes are arguments: every sequence of them; rays leaving a surface exactly horizontally excluded (proper_path)"
  },
  {
   "property": "C28",
   "status": "proved",
   "theorems": [
    "C28_bookkeeping",
    "C28_ending"
   ],
   "note": ""
  },
  {
   "property": "C29",
   "status": "proved",
   "theorems": [
    "C29_totals",
    "C29_sides",
    "C29_means"
   ],
   "note": ""
  },
  {
   "property": "C30",
   "status": "proved",
   "theorems": [
    "C30_ray",
    "C30_calculate",
    "C30_thin_layer"
   ],
   "note": "layers with at least two depth points, as the property says; C30_thin_layer: with fewer the profile is zero"
  },
  {
   "property": "C31",
   "status": "proved",
   "theorems": [
    "C31_partition"
   ],
   "note": ""
  },
  {
   "property": "C32",
   "status": "proved",
   "theorems": [
    "C32_attenuation",
    "C32_profile",
    "C32_shape"
   ],
   "note": ""
  },
  {
   "property": "C33",
   "status": "proved",
   "theorems": [
    "C33_reflect_refract",
    "C33_lookup"
   ],
   "note": "real refractive indices; facet hit from its front; lookup version below the critical angle (beyond it see C76)"
  },
  {
   "property": "C34",
   "status": "proved",
   "theorems": [
    "C34_total_reflection",
    "C34_refraction_defined"
   ],
   "note": "real indices; random draws < 1 as random() returns"
  },
  {
   "property": "C35",
   "status": "proved",
   "theorems": [
    "C35_range",
    "C35_unpolarised",
    "C35_index_matched",
    "C35_reciprocal",
    "C35_sine_law",
    "C35_tangent_law",
    "C35_normal_incidence",
    "C35_brewster",
    "C35_critical"
   ],
   "note": "real indices"
  },
  {
   "property": "C36",
   "status": "proved",
   "theorems": [
    "C36_draw_partition"
   ],
   "note": "sets of draws are intervals [0,R], (R,R+T], (R+T,1)"
  },
  {
   "property": "C37",
   "status": "proved",
   "theorems": [
    "C37_complete",
    "C37_sound_nearest"
   ],
   "note": "inside means barycentric coordinates >= -1e-10 as in the code; rays parallel to a triangle do not hit it"
  },
  {
   "property": "C38",
   "status": "proved",
   "theorems": [
    "C38_exit",
    "C38_translate"
   ],
   "note": "cell [0,Lx] x [0,Ly], ray strictly inside"
  },
  {
   "property": "C39",
   "status": "proved",
   "theorems": [
    "C39_contract",
    "C39_absorbs",
    "C39_gives_up",
    "C39_bounded_misses",
    "C39_cell"
   ],
   "note": "iterations between two hits are bounded; the number of hits itself is not"
  },
  {
   "property": "C40",
   "status": "partial",
   "theorems": [
    "C40_shift_or_refresh_partial",
    "C40_refresh_after_shift_refuted"
   ],
   "note": "REFUTED: a refresh after a shift moves the base off the coverage height. Proved for shifts only and for refreshes only."
  },
  {
   "property": "C41",
   "status": "partial",
   "theorems": [
    "C41_area_partial",
    "C41_area_refuted"
   ],
   "note": "REFUTED: the edge vectors are not normalised before arccos; large pyramids give NaN. Proved exactly when it is right."
  },
  {
   "property": "C42",
   "status": "partial",
   "theorems": [
    "C42_grooves_partial",
    "C42_width_refuted"
   ],
   "note": "REFUTED for width <> 1: the ridge ends at 1 instead of width. Profile and facet angle proved for every width, uniformity along the groove iff width = 1."
  },
  {
   "property": "C43",
   "status": "proved",
   "theorems": [
    "C43_pyramids"
   ],
   "note": "Without height_distribution."
  },
  {
   "property": "C44",
   "status": "partial",
   "theorems": [
    "C44_heights_partial",
    "C44_heights_refuted"
   ],
   "note": "REFUTED for maps that are not square. Square maps are laid out transposed, consistently."
  },
  {
   "property": "C45",
   "status": "partial",
   "theorems": [
    "C45_mirror_partial",
    "C45_coverage_refuted"
   ],
   "note": "REFUTED for a nonzero coverage_height given by the caller. Proved otherwise."
  },
  {
   "property": "C46",
   "status": "proved",
   "theorems": [
    "C46_column",
    "C46_entry",
    "C46_unpolarised"
   ],
   "note": "Incidence at exactly the critical angle: C92."
  },
  {
   "property": "C47",
   "status": "partial",
   "theorems": [
    "C47_rear_partial",
    "C47_coherency_refuted"
   ],
   "note": "REFUTED for every coherency list that does not read the same backwards: TMM turns the layers but not the coherency list. Proved otherwise."
  },
  {
   "property": "C48",
   "status": "partial",
   "theorems": [
    "C48_mean_partial",
    "C48_profile_partial",
    "C48_memory_refuted",
    "C48_coefficients_refuted"
   ],
   "note": "REFUTED for partly coherent stacks: uninitialised memory when no layer absorbs; the analytic functions use the s solution twice. Proved for coherent stacks and for R, T and absorbing partly coherent ones."
  },
  {
   "property": "C49",
   "status": "partial",
   "theorems": [
    "C49_layers_partial",
    "C49_unpolarised_refuted"
   ],
   "note": "REFUTED for unpolarised light when no layer absorbs (uninitialised memory). Proved for s and p."
  },
  {
   "property": "C50",
   "status": "proved",
   "theorems": [
    "C50_coherency_list"
   ],
   "note": ""
  },
  {
   "property": "C51",
   "status": "proved",
   "theorems": [
    "C51_lookup_table"
   ],
   "note": "For the default sides = [1, -1]; other lists: C93."
  },
  {
   "property": "C52",
   "status": "proved",
   "theorems": [
    "C52_reciprocal",
    "C52_two_ways_agree"
   ],
   "note": "The solver's own reciprocal lattice is an argument with b_i . a_j = delta_ij."
  },
  {
   "property": "C53",
   "status": "proved",
   "theorems": [
    "C53_grouping"
   ],
   "note": "Lengths are compared after rounding to 10 decimals."
  },
  {
   "property": "C54",
   "status": "partial",
   "theorems": [
    "C54_azimuth_partial",
    "C54_azimuth_refuted",
    "C54_opposite_orders_merge"
   ],
   "note": "REFUTED for phi_symmetry = 2 pi: arctan(x/y) loses the sign, opposite orders get the same azimuth. Proved when phi_symmetry divides pi."
  },
  {
   "property": "C55",
   "status": "partial",
   "theorems": [
    "C55_pol_partial",
    "C55_pol_refuted"
   ],
   "note": "REFUTED: '' is accepted as zero amplitude and any two characters are passed on as amplitudes. Proved for all other strings."
  },
  {
   "property": "C56",
   "status": "partial",
   "theorems": [
    "C56_columns_partial",
    "C56_energy_partial",
    "C56_absorption",
    "C56_rear_refuted"
   ],
   "note": "REFUTED for rear incidence with two or more polar bins: the running sum is read from column i1 and written to column in_bin[i1]. Proved for the front (and the rear with one polar bin) for directions with reflected power; absorption proved for both sides."
  },
  {
   "property": "C57",
   "status": "partial",
   "theorems": [
    "C57_stack_partial",
    "C57_stack_refuted"
   ],
   "note": "REFUTED: geometries are not turned with the layers. Proved exactly for palindromic geometry lists."
  },
  {
   "property": "C58",
   "status": "proved",
   "theorems": [
    "C58_sum_general",
    "C58_sum"
   ],
   "note": "The general form gives the excess over 1 for layers with gain."
  },
  {
   "property": "C59",
   "status": "partial",
   "theorems": [
    "C59_materials_partial",
    "C59_names_refuted",
    "C59_result_refuted"
   ],
   "note": "REFUTED: shapes find their material by its printed name, so two materials of the same name get the same permittivity. Proved when materials of the same name are equal, over histories of calculate, calculate_profile, set_size and set_widths."
  },
  {
   "property": "C60",
   "status": "partial",
   "theorems": [
    "C60_geometry_partial",
    "C60_geometry_refuted"
   ],
   "note": "REFUTED: with Inkstone the vertices of a polygon with a centre are shifted in place at every wavelength and call. Proved for S4 and, with Inkstone, for all other shapes."
  },
  {
   "property": "C61",
   "status": "partial",
   "theorems": [
    "C61_widths_partial",
    "C61_widths_refuted"
   ],
   "note": "REFUTED: update_oc restores the widths of the construction when the wavelengths change. Proved while the wavelengths stay the same. For tmm_structure see C96."
  },
  {
   "property": "C62",
   "status": "partial",
   "theorems": [
    "C62_fresh_partial",
    "C62_after_partial",
    "C62_stale_refuted"
   ],
   "note": "REFUTED: R, A, T of the last calculate are returned when only angle, polarisation, widths or geometry changed. Proved for a new object, for other wavelengths, and directly after calculate with the same options."
  },
  {
   "property": "C63",
   "status": "partial",
   "theorems": [
    "C63_numbering_partial",
    "C63_z_integral_refuted"
   ],
   "note": "REFUTED: get_fields_z_integral integrates over the layer above. Proved for the other methods (layer 0 see C108)."
  },
  {
   "property": "C64",
   "status": "partial",
   "theorems": [
    "C64_generation_matrix_partial",
    "C64_tmm_layout",
    "C64_generation_one_interface_refuted"
   ],
   "note": "REFUTED when only one interface has recorded passes: IndexError. Proved for both; layer tables laid out as TMM does; one bulk layer."
  },
  {
   "property": "C65",
   "status": "partial",
   "theorems": [
    "C65_tmm",
    "C65_rcwa_partial",
    "C65_rcwa_refuted"
   ],
   "note": "REFUTED for RCWA with widths that are not multiples of the spacing. Proved for TMM, and for RCWA with multiples."
  },
  {
   "property": "C66",
   "status": "proved",
   "theorems": [
    "C66_theta_summary_keeps_power"
   ],
   "note": ""
  },
  {
   "property": "C67",
   "status": "proved",
   "theorems": [
    "C67_interface_construction",
    "C67_interface_other_methods",
    "C67_interface_empty_layer"
   ],
   "note": "Layers described by Solcore layers or lists; every other method string is a ValueError."
  },
  {
   "property": "C68",
   "status": "proved",
   "theorems": [
    "C68_names_unique",
    "C68_read_back"
   ],
   "note": "names unique for all names and indices; table read for a surface is the one made for it, with overwrite or a directory without these tables (otherwise stale as in C22)"
  },
  {
   "property": "C69",
   "status": "proved",
   "theorems": [
    "C69_one_interaction"
   ],
   "note": ""
  },
  {
   "property": "C70",
   "status": "partial",
   "theorems": [
    "C70_zero_azimuth_refuted"
   ],
   "note": "REFUTED for every grid and theta: azimuth 0 goes to the previous ring or index -1."
  },
  {
   "property": "C71",
   "status": "partial",
   "theorems": [
    "C71_summary_energy_refuted",
    "C71_absorption_entries",
    "C71_balance_partial",
    "C71_balance_iff_partial"
   ],
   "note": "REFUTED: theta_summary_A sums over incidence azimuths. Proved for every grid: the entries are those sums over the upper-half channels of the ring, the balance holds after dividing by the number of channels, and without the division exactly for rings of one channel or without absorption. The RT half is C66."
  },
  {
   "property": "C72",
   "status": "partial",
   "theorems": [
    "C72_rear_lambertian_refuted"
   ],
   "note": "REFUTED: the matrix does not depend on the side."
  },
  {
   "property": "C73",
   "status": "proved",
   "theorems": [
    "C73_interface_profile"
   ],
   "note": ""
  },
  {
   "property": "C74",
   "status": "partial",
   "theorems": [
    "C74_stale_profile_refuted",
    "C19_overwrite_partial"
   ],
   "note": "REFUTED by a history of three completed runs; holds with a fixed profile setting (C19_overwrite_partial)"
  },
  {
   "property": "C75",
   "status": "partial",
   "theorems": [
    "C75_torn_file_refuted",
    "C75_overwrite_recovers_partial"
   ],
   "note": "REFUTED with the default overwrite=False (every later call raises); proved with overwrite=True from any directory"
  },
  {
   "property": "C76",
   "status": "partial",
   "theorems": [
    "C76_lookup_refuted",
    "C76_reflecting_entry_partial"
   ],
   "note": "REFUTED: the nearest tabulated angle may lie below the critical angle; holds if the selected entry has R >= 1"
  },
  {
   "property": "C77",
   "status": "proved",
   "theorems": [
    "C77_path_attenuation",
    "C77_final_absorption"
   ],
   "note": ""
  },
  {
   "property": "C78",
   "status": "proved",
   "theorems": [
    "C78_terminates",
    "C78_transparent_never_ends"
   ],
   "note": ""
  },
  {
   "property": "C79",
   "status": "partial",
   "theorems": [
    "C79_start_inside_refuted",
    "C79_after_first_surface_partial"
   ],
   "note": "REFUTED: absorption is computed only after a surface interaction, so the first crossing of a ray started inside a layer is free; proved for all later crossings"
  },
  {
   "property": "C80",
   "status": "proved",
   "theorems": [
    "C80_pass_series"
   ],
   "note": "same regimes as C09; one bulk layer"
  },
  {
   "property": "C81",
   "status": "proved",
   "theorems": [
    "C81_regular_rays_conserve"
   ],
   "note": ""
  },
  {
   "property": "C82",
   "status": "partial",
   "theorems": [
    "C82_local_angles_partial",
    "C82_normal_hit_refuted"
   ],
   "note": "REFUTED for local angle exactly 0 (index -1: grazing ring). Proved for non-zero local angles; column sums proved always."
  },
  {
   "property": "C83",
   "status": "partial",
   "theorems": [
    "C83_layer_split_partial",
    "C83_layer_split_refuted"
   ],
   "note": "REFUTED: rays are weighted by their total absorptance. Proved when the absorbed rays of a bin share the same layer proportions."
  },
  {
   "property": "C84",
   "status": "proved",
   "theorems": [
    "C84_surface_consistent"
   ],
   "note": "The triangulation is an argument, assumed counter-clockwise."
  },
  {
   "property": "C85",
   "status": "partial",
   "theorems": [
    "C85_both_sides_partial",
    "C85_rear_heights_refuted"
   ],
   "note": "REFUTED for regular_pyramids: the rear surface is made without the keyword arguments. Proved for xyz_texture."
  },
  {
   "property": "C86",
   "status": "proved",
   "theorems": [
    "C86_rough_pyramids"
   ],
   "note": ""
  },
  {
   "property": "C87",
   "status": "proved",
   "theorems": [
    "C87_rough_planar"
   ],
   "note": ""
  },
  {
   "property": "C88",
   "status": "proved",
   "theorems": [
    "C88_hemisphere"
   ],
   "note": ""
  },
  {
   "property": "C89",
   "status": "partial",
   "theorems": [
    "C89_unit_cell_partial",
    "C89_wide_cap_refuted"
   ],
   "note": "REFUTED for a smooth cap wider than the cell. Proved for the other textures (V grooves: C42) and caps that fit."
  },
  {
   "property": "C90",
   "status": "partial",
   "theorems": [
    "C90_front_partial",
    "C90_rear_z_refuted"
   ],
   "note": "REFUTED for rear incidence: the labels run against the data. Data order proved for both sides, labels for the front."
  },
  {
   "property": "C91",
   "status": "partial",
   "theorems": [
    "C91_reaching_partial",
    "C91_single_polarisation_refuted"
   ],
   "note": "REFUTED for s and p: the own absorption of the layer is subtracted and R is not. Proved for unpolarised light with respect to the s solution."
  },
  {
   "property": "C92",
   "status": "partial",
   "theorems": [
    "C92_rear_partial",
    "C92_front_refuted"
   ],
   "note": "REFUTED for front incidence: T is stored among the reflected directions and overwrites R in the last ring. Proved for the rear."
  },
  {
   "property": "C93",
   "status": "partial",
   "theorems": [
    "C93_sides_refuted"
   ],
   "note": "REFUTED: the stack is picked by position, the order of layers by value; a single side is rejected. The default list is C51."
  },
  {
   "property": "C94",
   "status": "partial",
   "theorems": [
    "C94_polarisation_refuted"
   ],
   "note": "REFUTED: every other string is treated as unpolarised (\"\" and \"sp\" are passed to the solver)."
  },
  {
   "property": "C95",
   "status": "proved",
   "theorems": [
    "C95_depths"
   ],
   "note": ""
  },
  {
   "property": "C96",
   "status": "partial",
   "theorems": [
    "C96_stack_partial",
    "C96_width_refuted"
   ],
   "note": "REFUTED for the attribute width; the stack that is solved has the last widths."
  },
  {
   "property": "C97",
   "status": "proved",
   "theorems": [
    "C97_all_orders"
   ],
   "note": ""
  },
  {
   "property": "C98",
   "status": "proved",
   "theorems": [
    "C98_grating_equation",
    "C98_zero_order"
   ],
   "note": "Real refractive indices."
  },
  {
   "property": "C99",
   "status": "partial",
   "theorems": [
    "C99_degeneracy_partial",
    "C99_degeneracy_refuted"
   ],
   "note": "REFUTED: only the first wavelength is looked at. Proved for the first wavelength."
  },
  {
   "property": "C100",
   "status": "partial",
   "theorems": [
    "C100_no_reflection_refuted"
   ],
   "note": "REFUTED: division by the zero sum of reflected powers gives NaN."
  },
  {
   "property": "C101",
   "status": "partial",
   "theorems": [
    "C101_flat_partial",
    "C101_flat_refuted"
   ],
   "note": "REFUTED for a full turn: the azimuths differ by pi. Proved when phi_symmetry divides pi, front incidence, below the critical angle."
  },
  {
   "property": "C102",
   "status": "partial",
   "theorems": [
    "C102_front_partial",
    "C102_rear_z_refuted"
   ],
   "note": "REFUTED for rear incidence: data are flipped, labels are not. Proved for the front."
  },
  {
   "property": "C103",
   "status": "partial",
   "theorems": [
    "C103_calculate_partial",
    "C103_profile_partial",
    "C103_shared_refuted"
   ],
   "note": "REFUTED: calculate_profile writes into the dictionary returned before. Proved for calculate and for all dictionaries but the last."
  },
  {
   "property": "C104",
   "status": "partial",
   "theorems": [
    "C104_wavelengths_partial",
    "C104_wavelengths_refuted"
   ],
   "note": "REFUTED for lists of another length with numpy 1.25 or later. Proved for equal lengths."
  },
  {
   "property": "C105",
   "status": "partial",
   "theorems": [
    "C105_options_partial",
    "C105_options_refuted"
   ],
   "note": "REFUTED: make_S reads options[\"S4_options\"], not the merged options; any one missing raises KeyError. Proved for the options used by calculate and calculate_profile."
  },
  {
   "property": "C106",
   "status": "partial",
   "theorems": [
    "C106_inkstone_orders_refuted"
   ],
   "note": "REFUTED: RCWA_structure_wl_inkstone returns no absorption per order, IndexError."
  },
  {
   "property": "C107",
   "status": "partial",
   "theorems": [
    "C107_wavelength_partial",
    "C107_wavelength_refuted"
   ],
   "note": "REFUTED: the nearest stored wavelength is used, however far. Proved for stored wavelengths."
  },
  {
   "property": "C108",
   "status": "partial",
   "theorems": [
    "C108_fields_refuted",
    "C108_cell_refuted"
   ],
   "note": "REFUTED: get_fields raises UnboundLocalError, get_fields_unit_cell looks into the first layer (S4)."
  },
  {
   "property": "C109",
   "status": "partial",
   "theorems": [
    "C109_entries_partial",
    "C109_entries_refuted"
   ],
   "note": "REFUTED: lists of a length other than 4 or 5 are dropped. Proved for the documented forms."
  },
  {
   "property": "C110",
   "status": "partial",
   "theorems": [
    "C110_solvers_partial",
    "C110_solvers_refuted"
   ],
   "note": "REFUTED for polygons with an angle. Proved otherwise."
  },
  {
   "property": "C111",
   "status": "partial",
   "theorems": [
    "C111_too_many_partial",
    "C111_too_few_refuted"
   ],
   "note": "REFUTED for too few widths: a shorter stack is solved, a layer in place of the transmission medium. Proved for too many."
  },
  {
   "property": "C112",
   "status": "proved",
   "theorems": [
    "C112_profile_values",
    "C112_layer_unique"
   ],
   "note": ""
  },
  {
   "property": "C113",
   "status": "partial",
   "theorems": [
    "C113_list_material_refuted"
   ],
   "note": "REFUTED: the set of materials needs hashable objects, TypeError."
  },
  {
   "property": "C114",
   "status": "partial",
   "theorems": [
    "C114_other_solver_refuted"
   ],
   "note": "REFUTED: an object built for Inkstone has no S4 options, TypeError."
  },
  {
   "property": "C115",
   "status": "partial",
   "theorems": [
    "C115_width_partial",
    "C115_width_refuted"
   ],
   "note": "REFUTED: set_widths does not change width. Proved for histories without set_widths."
  },
  {
   "property": "C116",
   "status": "partial",
   "theorems": [
    "C116_new_material_refuted"
   ],
   "note": "REFUTED: a material no shape had at construction has no entry, ValueError."
  },
  {
   "property": "C117",
   "status": "proved",
   "theorems": [
    "C117_calculate_returns"
   ],
   "note": "A_per_order=False; polygons with centre and angle for S4; options may differ from those of the construction."
  },
  {
   "property": "C118",
   "status": "partial",
   "theorems": [
    "C118_structure_listing_partial",
    "C118_structure_listing_refuted"
   ],
   "note": "REFUTED: an appended element is never printed. Proved for the constructor followed by pop."
  },
  {
   "property": "C119",
   "status": "partial",
   "theorems": [
    "C119_generation_rays_partial",
    "C119_generation_fresnel",
    "C119_generation_layer_order_refuted",
    "C119_generation_layer_grid_refuted"
   ],
   "note": "REFUTED for requested layers not in increasing order and for widths that are not multiples of the spacing. Proved otherwise."
  },
  {
   "property": "C120",
   "status": "partial",
   "theorems": [
    "C120_bulk_depth_partial",
    "C120_bulk_depth_refuted",
    "C120_thin_bulk_refuted"
   ],
   "note": "REFUTED: below the first bulk layer the depth is wrong by up to one spacing, and a bulk layer without a grid point is a ValueError. Proved: the error is less than one spacing, and 0 exactly when the layers above add up to a multiple of the spacing."
  },
  {
   "property": "C121",
   "status": "proved",
   "theorems": [
    "C121_positions_increasing"
   ],
   "note": "All four branches; widths not negative."
  },
  {
   "property": "C122",
   "status": "partial",
   "theorems": [
    "C122_rear_profile_partial",
    "C122_rear_profile_refuted"
   ],
   "note": "REFUTED: samples are reversed, which moves them by width - (n-1) spacing. Proved: the distance is wrong by more than 0 and at most one spacing."
  },
  {
   "property": "C123",
   "status": "partial",
   "theorems": [
    "C123_angle_profile_partial",
    "C123_angle_profile_refuted"
   ],
   "note": "REFUTED: angles where A1 adds up to 0 are dropped, e.g. all of them for incoherent layers. Proved otherwise."
  },
  {
   "property": "C124",
   "status": "partial",
   "theorems": [
    "C124_interface_profile_partial",
    "C124_interface_profile_refuted"
   ],
   "note": "REFUTED: one ray with no tabulated absorption above 1e-10 makes the profile of its side 0. Proved when every ray has table entries above it in the requested layers and the summed profile has a positive integral."
  },
  {
   "property": "C125",
   "status": "proved",
   "theorems": [
    "C125_profile_points"
   ],
   "note": ""
  },
  {
   "property": "C126",
   "status": "partial",
   "theorems": [
    "C126_generation_tmm_partial",
    "C126_generation_new_widths_refuted",
    "C126_generation_some_layers_refuted"
   ],
   "note": "REFUTED after set_widths and for profiles of some layers: ValueError. Proved for the widths of the construction and all layers."
  },
  {
   "property": "C127",
   "status": "partial",
   "theorems": [
    "C127_generation_without_bulk_refuted"
   ],
   "note": "REFUTED: no structure and result give a function."
  },
  {
   "property": "C128",
   "status": "proved",
   "theorems": [
    "C128_every_ray_traced",
    "C128_positions_inside",
    "C128_positions_even"
   ],
   "note": ""
  },
  {
   "property": "C129",
   "status": "partial",
   "theorems": [
    "C129_random_positions_partial",
    "C129_random_positions_refuted"
   ],
   "note": "REFUTED: nx x-coordinates and ny y-coordinates are drawn; the points are their product, and the same for all repetitions. Proved: each coordinate can be anything within the limits."
  },
  {
   "property": "C130",
   "status": "proved",
   "theorems": [
    "C130_incident_ray",
    "C130_incident_ray_stack"
   ],
   "note": ""
  },
  {
   "property": "C131",
   "status": "partial",
   "theorems": [
    "C131_start_inside_down_partial",
    "C131_start_inside_up_partial",
    "C131_start_below_refuted",
    "C131_start_above_refuted"
   ],
   "note": "REFUTED for the outer media: from below the ray starts above the last surface, from the incidence medium upwards it is checked against the last surface. Proved for the inner layers (between their nominal depths)."
  },
  {
   "property": "C132",
   "status": "partial",
   "theorems": [
    "C132_moved_into_cell_partial",
    "C132_moved_into_cell_refuted"
   ],
   "note": "REFUTED for every cell whose corner is not (0, 0). Proved for cells that start at (0, 0)."
  },
  {
   "property": "C133",
   "status": "proved",
   "theorems": [
    "C133_randomized_start",
    "C133_position_forgotten",
    "C133_not_randomised",
    "C133_later_checks"
   ],
   "note": "The first surface a ray meets is not randomised (rt.py:1660). C133_position_forgotten, C133_not_randomised and C133_later_checks: the option of rt_structure.calculate."
  },
  {
   "property": "C134",
   "status": "proved",
   "theorems": [
    "C134_structure_copies_textures"
   ],
   "note": ""
  },
  {
   "property": "C135",
   "status": "proved",
   "theorems": [
    "C135_tables_requested"
   ],
   "note": ""
  },
  {
   "property": "C136",
   "status": "partial",
   "theorems": [
    "C136_counts_checked_partial",
    "C136_counts_checked_refuted"
   ],
   "note": "REFUTED: one material too many gives no error, and the last interface is tabulated for another medium than the one listed under it. Proved: too few widths are an IndexError."
  },
  {
   "property": "C137",
   "status": "proved",
   "theorems": [
    "C137_results_by_wavelength"
   ],
   "note": ""
  },
  {
   "property": "C138",
   "status": "partial",
   "theorems": [
    "C138_only_incidence_partial",
    "C138_only_incidence_refuted"
   ],
   "note": "REFUTED for phi_in = \"all\": TypeError. Proved for a number."
  },
  {
   "property": "C139",
   "status": "partial",
   "theorems": [
    "C139_incidence_column_partial",
    "C139_incidence_column_refuted"
   ],
   "note": "REFUTED for theta_in on an edge between polar bins: all rays are in a column without incident power. Proved off the edges and at 0."
  },
  {
   "property": "C140",
   "status": "partial",
   "theorems": [
    "C140_rear_incidence_partial",
    "C140_rear_incidence_refuted"
   ],
   "note": "REFUTED for groups of several textures: inner media and textures are met in the order of front incidence. Proved for one texture."
  },
  {
   "property": "C141",
   "status": "partial",
   "theorems": [
    "C141_too_few_directions_refuted",
    "C141_default_population_refuted",
    "C141_default_population_partial"
   ],
   "note": "REFUTED: the defaults give 100 directions for 338 columns; the other columns keep the contents of uninitialised memory (with any number of directions below that of the channels). Proved: from 33800 rays on every column is set and adds up to one."
  },
  {
   "property": "C142",
   "status": "proved",
   "theorems": [
    "C142_media",
    "C142_sides",
    "C142_tables"
   ],
   "note": ""
  },
  {
   "property": "C143",
   "status": "proved",
   "theorems": [
    "C143_accepted"
   ],
   "note": ""
  },
  {
   "property": "C144",
   "status": "partial",
   "theorems": [
    "C144_only_incidence_partial",
    "C144_only_incidence_rt_partial",
    "C144_only_incidence_refuted"
   ],
   "note": "REFUTED for TMM and RCWA front surfaces: the option is ignored. Proved for ray tracing."
  },
  {
   "property": "C145",
   "status": "proved",
   "theorems": [
    "C145_arguments",
    "C145_widths"
   ],
   "note": ""
  },
  {
   "property": "C146",
   "status": "proved",
   "theorems": [
    "C146_savepath"
   ],
   "note": ""
  },
  {
   "property": "C147",
   "status": "partial",
   "theorems": [
    "C147_nested_refuted",
    "C147_project_refuted"
   ],
   "note": "REFUTED: os.mkdir makes one level; a missing parent is an error. One level is C146."
  },
  {
   "property": "C148",
   "status": "partial",
   "theorems": [
    "C148_existing_partial",
    "C148_race_refuted"
   ],
   "note": "REFUTED: between isdir and mkdir another run can create the directory, and mkdir fails. Proved for existing directories, any number of runs, any order."
  },
  {
   "property": "C149",
   "status": "proved",
   "theorems": [
    "C149_slab",
    "C149_slab_on_mirror"
   ],
   "note": "Angles at which T is stored (kept): not exactly critical, and beyond it T is 0 or more than 1e-8; exceptions are C46 and C92. Odd symmetries are covered by C08 and C09."
  },
  {
   "property": "C150",
   "status": "proved",
   "theorems": [
    "C150_energy"
   ],
   "note": "Under the same condition on T as C149 (all_kept) and the relabelling condition of C08."
  },
  {
   "property": "C151",
   "status": "proved",
   "theorems": [
    "C151_fresnel",
    "C151_table"
   ],
   "note": "Surface not exactly at height -1e-8 (where the start-point shift lands on zero)."
  },
  {
   "property": "C152",
   "status": "proved",
   "theorems": [
    "C152_fresnel",
    "C152_table"
   ],
   "note": "Even number of symmetry sectors: for odd ones a folded azimuth can be exactly 0, which is C70. Default (not random) ray directions."
  },
  {
   "property": "C153",
   "status": "proved",
   "theorems": [
    "C153_same_bins"
   ],
   "note": "Even number of symmetry sectors, below the critical angle; beyond it C152 and C46 give the single specular bin."
  },
  {
   "property": "C154",
   "status": "proved",
   "theorems": [
    "C154_surface",
    "C154_rim",
    "C154_succeeds"
   ],
   "note": "ConvexHull is an argument. hyperhemisphere can fail with IndexError only when the hulls of a set of points and of its mirror image differ."
  },
  {
   "property": "C155",
   "status": "proved",
   "theorems": [
    "C155_upward"
   ],
   "note": ""
  },
  {
   "property": "C156",
   "status": "partial",
   "theorems": [
    "C156_outward_partial",
    "C156_outward_refuted"
   ],
   "note": "REFUTED: a triangle is turned by the height of its middle (below 0.97 h: downwards), not by the side the sphere is on, so a triangle below the centre that looks slightly upwards ends with an inward normal; witness N_points = 5, radius = h = 1. Proved where middle and face agree."
  },
  {
   "property": "C157",
   "status": "partial",
   "theorems": [
    "C157_units_partial",
    "C157_units_refuted"
   ],
   "note": "REFUTED: points near the rim are counted in a window of 0.01 whatever the radius; witness N_points = 8, radius 1 (4 points) and 0.01 (6 points). Proved when the number of points is the same."
  },
  {
   "property": "C158",
   "status": "partial",
   "theorems": [
    "C158_faces_partial",
    "C158_whole_sphere_refuted",
    "C158_cap_refuted"
   ],
   "note": "REFUTED: the flat bottom is recognised by |N_z| > 0.9 and z < radius/10, which also holds at the bottom of a whole sphere (every N_points >= 51) and at the top of a cap no higher than radius/10 (N_points >= 90). All other faces are returned."
  },
  {
   "property": "C159",
   "status": "proved",
   "theorems": [
    "C159_orders_add_up",
    "C159_lossless_order"
   ],
   "note": "S4 only: see C106 for Inkstone."
  },
  {
   "property": "C160",
   "status": "partial",
   "theorems": [
    "C160_basis_partial",
    "C160_basis_refuted"
   ],
   "note": "REFUTED: the absorption is calculated with the S4 options given to the constructor, the basis set with those given to calculate; with another LatticeTruncation the sizes differ. Proved when both are the same."
  },
  {
   "property": "C161",
   "status": "proved",
   "theorems": [
    "C161_ray",
    "C161_start",
    "C161_totals"
   ],
   "note": "Rays left exactly horizontal by a surface are excluded (see C77)."
  },
  {
   "property": "C162",
   "status": "proved",
   "theorems": [
    "C162_planar"
   ],
   "note": ""
  },
  {
   "property": "C163",
   "status": "proved",
   "theorems": [
    "C163_planar_light"
   ],
   "note": ""
  },
  {
   "property": "C164",
   "status": "proved",
   "theorems": [
    "C164_built_planar",
    "C164_planar_surface"
   ],
   "note": ""
  },
  {
   "property": "C165",
   "status": "proved",
   "theorems": [
    "C165_cell"
   ],
   "note": ""
  },
  {
   "property": "C166",
   "status": "proved",
   "theorems": [
    "C166_edit",
    "C166_only_that_shape",
    "C166_materials"
   ],
   "note": ""
  },
  {
   "property": "C167",
   "status": "partial",
   "theorems": [
    "C167_new_material_refuted"
   ],
   "note": "REFUTED: the list of materials is fixed at construction, calculate fails"
  },
  {
   "property": "C168",
   "status": "partial",
   "theorems": [
    "C168_outdated",
    "C168_outdated_refuted"
   ],
   "note": "REFUTED: R, T and A stored before the change are returned"
  },
  {
   "property": "C169",
   "status": "proved",
   "theorems": [
    "C169_metal",
    "C169_wave",
    "C169_normal",
    "C169_probability",
    "C169_transparent"
   ],
   "note": ""
  },
  {
   "property": "C170",
   "status": "partial",
   "theorems": [
    "C170_every_angle_refuted",
    "C170_beyond_refuted",
    "C170_below_partial"
   ],
   "note": "REFUTED: beyond arcsin(Re n1 / Re n0) everything is reflected, although light enters absorbing media at all angles; holds below (C170_below_partial)"
  },
  {
   "property": "C171",
   "status": "proved",
   "theorems": [
    "C171_snell"
   ],
   "note": ""
  },
  {
   "property": "C172",
   "status": "partial",
   "theorems": [
    "C172_same_direction_refuted",
    "C172_same_direction_partial"
   ],
   "note": "REFUTED: decide_RT_TMM takes the real part after multiplying with the complex n0 / n1; same direction when n0 / n1 is real or light falls straight on"
  },
  {
   "property": "C173",
   "status": "proved",
   "theorems": [
    "C173_energy",
    "C173_planar_not_level"
   ],
   "note": "Rays left exactly horizontal by a surface are excluded (see C77); in planar structures there are none (C173_planar_not_level)."
  },
  {
   "property": "C174",
   "status": "proved",
   "theorems": [
    "C174_flat",
    "C174_place"
   ],
   "note": "Light not exactly at the critical angle of a medium; layers thicker than 1e-14 m; periodic boundaries (the default). Tables: entries are probabilities, let nothing through beyond the critical angle, and the media on both sides are in phase (n0/n1 real) or the light falls straight on; C172 shows the direction is wrong otherwise."
  },
  {
   "property": "C175",
   "status": "proved",
   "theorems": [
    "C175_ends"
   ],
   "note": ""
  },
  {
   "property": "C176",
   "status": "proved",
   "theorems": [
    "C176_light_only"
   ],
   "note": ""
  },
  {
   "property": "C177",
   "status": "proved",
   "theorems": [
    "C177_mean",
    "C177_balance",
    "C177_reports",
    "C177_one_average"
   ],
   "note": "Random numbers are independent and uniform reals; the average is an iterated Riemann integral over them. Light not exactly at a critical angle, as in C174."
  },
  {
   "property": "C178",
   "status": "proved",
   "theorems": [
    "C178_slab"
   ],
   "note": ""
  },
  {
   "property": "C179",
   "status": "proved",
   "theorems": [
    "C179_R0"
   ],
   "note": ""
  },
  {
   "property": "C180",
   "status": "proved",
   "theorems": [
    "C180_chance"
   ],
   "note": "Rays left exactly horizontal by a surface are excluded, as in C173. Tracing is assumed to end for every sequence of numbers within a bound (proved for planar absorbing structures in C175). Positions and the draws of randomize_surface are fixed."
  },
  {
   "property": "C181",
   "status": "proved",
   "theorems": [
    "C181_planar"
   ],
   "note": "As C177."
  },
  {
   "property": "C182",
   "status": "proved",
   "theorems": [
    "C182_columns",
    "C182_every_column"
   ],
   "note": "The incoming directions are not exactly vertical, horizontal or at an azimuth edge (the default ones never are). Lookup tables must have some absorption where R + T < 1. group.materials is None. Rays that do not end are outside the statement."
  },
  {
   "property": "C183",
   "status": "proved",
   "theorems": [
    "C183_close",
    "C183_default"
   ],
   "note": "Tracing is assumed to end for every sequence of numbers within the bound (proved for flat surfaces). Positions, directions and restart positions are fixed. The split of the absorption between layers is not covered (a ratio, not an average)."
  },
  {
   "property": "C184",
   "status": "proved",
   "theorems": [
    "C184_default",
    "C184_incidence"
   ],
   "note": "Beyond the critical angle the table must let nothing through, and media on both sides of a table must be in phase (as C172 shows to be needed). phi_sym = 2 pi / m with even m. In C184_incidence the angle of incidence must be inclined as in C182."
  },
  {
   "property": "C185",
   "status": "proved",
   "theorems": [
    "C185_energy",
    "C185_textured_rear"
   ],
   "note": "Default directions with at least one ray for each channel and position, the same options for all surfaces; the direction of incidence is below 90 degrees and its azimuth not phi_sym itself (C07). The absorption of the bulk at each wavelength is an argument, at least eps over the thickness."
  },
  {
   "property": "C186",
   "status": "proved",
   "theorems": [
    "C186_more_absorption"
   ],
   "note": "Symmetry and grid as in C08 (relabel_ok), direction as in C07. The surfaces are stored matrices with nonnegative entries and columns adding up to at most one."
  },
  {
   "property": "C187",
   "status": "proved",
   "theorems": [
    "C187_light_trapping"
   ],
   "note": "Same conditions as C186. The run with the better surfaces is assumed to end within the given number of passes (C12 gives such a number); the other one then does too."
  },
  {
   "property": "C188",
   "status": "partial",
   "theorems": [
    "C188_several_bulks_refuted",
    "C188_each_alone_partial",
    "C188_interfaces_partial",
    "C188_counted_partial",
    "C188_one_bulk_partial"
   ],
   "note": "REFUTED for two bulk layers: matrix_multiplication starts every bulk layer with the full incident light (multiply_matrices.py:400, 531), so two layers together are reported to absorb more than falls on the structure. Proved: the row of each layer is the result of that layer alone with its two interfaces, an interface is charged with what the layers above and below lose there, the incident light is counted once per layer, and for one bulk layer the light is accounted for. The documentation supports one bulk layer only, but nothing checks this."
  },
  {
   "property": "C189",
   "status": "partial",
   "theorems": [
    "C189_dropped_refuted",
    "C189_exception_refuted",
    "C189_all_rows_partial"
   ],
   "note": "REFUTED: the test for empty results (multiply_matrices.py:577) looks at the last bulk layer only. If no light enters the last one, the absorption of the others is dropped; if none enters an earlier one, ValueError. Proved: all rows are there if more than the threshold enters every bulk layer at some wavelength."
  },
  {
   "property": "C190",
   "status": "proved",
   "theorems": [
    "C190_fresnel",
    "C190_table",
    "C190_exit",
    "C190_absorbing",
    "C190_absorbing_exit"
   ],
   "note": "For all surfaces close to a gently sloping graph, all rays from either side, both ways of deciding. Lookup tables: real indices. The condition on the tolerance is needed, see C192. For transmission into a lower index the bound is on the angle of refraction, C190_exit. C190_absorbing and C190_absorbing_exit: Fresnel with absorbing media, complex indices."
  },
  {
   "property": "C191",
   "status": "proved",
   "theorems": [
    "C191_pyramids",
    "C191_exit"
   ],
   "note": "For every triangulation of the five points into the four faces; sizes with 1.2 size sin a < cos 3a, or cos (b + 2a) for transmission into any index, b the angle of refraction."
  },
  {
   "property": "C192",
   "status": "partial",
   "theorems": [
    "C192_units_refuted",
    "C192_small_partial"
   ],
   "note": "REFUTED: check_intersect accepts points 1e-10 of the edge length outside a facet, single_interface_check moves on by the absolute 1e-9 (rt.py:2090, 2236), so for 100 um pyramids in um a ray can interact with two facets where the same texture in a larger unit gives one. Proved: pyramids below 30 degrees within the size bound of C191 give the same result in every unit."
  },
  {
   "property": "C193",
   "status": "partial",
   "theorems": [
    "C193_steep_refuted",
    "C193_gentle_partial",
    "C193_absorbing_partial"
   ],
   "note": "REFUTED: after a miss only one neighbouring cell is tried (rt.py:1967-1973), and a ray going away from the texture is not followed further (rt.py:2008-2010): with 53 degree pyramids a reflected ray that crosses the next cell between two pyramids is reported as leaving although a pyramid two cells further lies in its way. Proved: after one interaction with a gentle texture (hypotheses of C190) the path is free; C193_absorbing_partial for complex indices."
  },
  {
   "property": "C194",
   "status": "proved",
   "theorems": [
    "C194_twice",
    "C194_second"
   ],
   "note": "Light straight from above, away from the edges by the margin of the code (step 1e-9, tolerance 1e-10). C194_twice holds for the decision by Fresnel and by lookup table, with real or complex indices, and whatever happens at the second facet; C194_second gives the local angle recorded by the code when the second facet absorbs."
  },
  {
   "property": "C195",
   "status": "partial",
   "theorems": [
    "C195_edge_refuted",
    "C195_gentle_partial"
   ],
   "note": "REFUTED: upright pyramids with slope 4/3 and light that falls 2e-10 from the border of the cell. The facet reflects it, the step of 1e-9 after the reflection takes it through the facing facet, and it goes on downwards below the surface; it is reported as transmitted (the sign of the z component is compared with that of the incoming ray, rt.py:2034-2040) although the code still has it on the side of incidence. Proved: for gentle textures (hypotheses of C190; refraction into a lower index left out) the outcome and the side agree."
  },
  {
   "property": "C196",
   "status": "proved",
   "theorems": [
    "C196_twice",
    "C196_absorbed"
   ],
   "note": "Light straight from above, off the diagonals by the margin of the code (step 1e-9, tolerance 1e-10); also on the border of the cell, unlike C194."
  },
  {
   "property": "C197",
   "status": "partial",
   "theorems": [
    "C197_met_partial",
    "C197_beside_refuted",
    "C197_straight_refuted",
    "C197_snell_refuted"
   ],
   "note": "REFUTED: single_cell_check reports a ray that finds no facet as transmitted, so a ray past the edge of the cell changes medium without refraction, reflection or interaction; a layer thicker than the cell is wide lets light out beyond the critical angle. Proved for flat cells met within the cell."
  },
  {
   "property": "C198",
   "status": "partial",
   "theorems": [
    "C198_landing_partial",
    "C198_aim_refuted",
    "C198_lower_part_refuted"
   ],
   "note": "REFUTED: single_ray_stack keeps x and y of the point at height 0 and sets the height of the start above the surface, so the ray comes down (h + 1e-8) tan(theta) away; harmless with periodic boundaries, but without them the part of a tall surface well below its peak may be missed by all rays. The place where it comes down is proved."
  },
  {
   "property": "C199",
   "status": "partial",
   "theorems": [
    "C199_gentle_partial",
    "C199_steep_refuted",
    "C199_structure_refuted"
   ],
   "note": "REFUTED for all facet angles between 45 and 90 degrees: single_cell_check compares the signs of the z components only, so the reflected ray, which goes on downwards beside the pyramid, is reported as transmitted, and single_ray_stack takes it to be in the medium below. Proved for facet angles up to 45 degrees. Light straight from above, off the edges of the pyramid."
  },
  {
   "property": "C200",
   "status": "partial",
   "theorems": [
    "C200_calculate_partial",
    "C200_matrices_partial",
    "C200_middle_partial",
    "C200_even_refuted",
    "C200_single_refuted"
   ],
   "note": "REFUTED: the points go from 1 % to 99 % of the cell at equal distances (rt.py:186-209, 886-914), so the last point of a cell and the first one of the next are 2 % of the cell apart whatever the number of points; shares are equal for 50 points only. With one point it is at the edge and not in the middle. Proved: every ray of calculate and RT is traced from its point of the grid asked for, n_rays rounded up to whole grids and the directions of RT as asked for, and the default grid with two or more points is symmetric about the middle of the cell."
  },
  {
   "property": "C201",
   "status": "proved",
   "theorems": [
    "C201_calculate",
    "C201_on_the_way",
    "C201_interface",
    "C201_matrices"
   ],
   "note": "In exact arithmetic. The cell is that of the surface met first; for light that starts inside or below, C201_calculate asks that all surfaces have the same cell. Without periodic boundaries see C197."
  }
 ]
}