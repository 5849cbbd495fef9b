{"id": "C01", "title": "The angular grid is a symmetric partition of the sphere", "statement": "make_angle_vector(n, phi_sym, c) returns 2n polar bins whose edges increase strictly from 0 to pi and are symmetric about pi/2; ring i and its mirror ring 2n-1-i hold the same number of azimuth bins; the angle vector therefore has even length, its first half is exactly the upper hemisphere and its second half the lower one; every listed (theta, phi) lies strictly inside its own bin.", "quantifier": "every number of polar bins n >= 1, every azimuth density c > 0, every symmetry angle phi_sym > 0, both theta_spacing settings", "why_tests_cant": "A test fixes n, c and phi_sym; the halving of the matrices (len/2) is used everywhere and must be right for every discretisation.", "anchors": ["rayflare/angles.py:make_angle_vector"]}
{"id": "C02", "title": "Azimuth folding is a canonical representative of the rotation class", "statement": "fold_phi(phi, phi_sym) lies in [0, phi_sym) and, when 2*pi is an integer multiple of phi_sym, differs from phi by an integer multiple of phi_sym, so directions related by a full turn or by the declared symmetry get the same value and folding twice changes nothing.", "quantifier": "every real azimuth phi and every positive phi_sym (range), every phi_sym = 2*pi/m, m >= 1 (congruence)", "why_tests_cant": "Holds for a continuum of angles including negatives and multiples of pi where floor division changes branch.", "anchors": ["rayflare/angles.py:fold_phi", "rayflare/rigorous_coupled_wave_analysis/rcwa.py:fold_phi"]}
{"id": "C03", "title": "Binning a direction finds the unique bin that contains it", "statement": "For a direction with 0 < theta <= pi and 0 < phi <= phi_sym the theta/phi binning used by all methods returns an index in [0, N) whose bin contains the direction, no other bin contains it, and the centre listed in the angle vector is binned to its own row.", "quantifier": "every grid (n, c, phi_sym, spacing) and every direction", "why_tests_cant": "Bin-edge cases form a continuum; off-by-one at an edge moves power to a different ring.", "anchors": ["rayflare/angles.py:overall_bin", "rayflare/ray_tracing/rt.py:RT_wl", "rayflare/transfer_matrix_method/tmm.py:TMM"]}
{"id": "C04", "title": "A Lambertian interface scatters all power back, identically for every incidence", "statement": "The Lambertian redistribution matrix is non-negative, all its columns are equal and sum to 1, rows of the transmission half are zero, absorption is zero; within a theta ring the power is shared equally between the azimuth bins.", "quantifier": "every grid (front incidence, the only side process_structure generates)", "why_tests_cant": "Normalisation must hold for every discretisation, not for the one grid of the unit test.", "anchors": ["rayflare/matrix_formalism/ideal_cases.py:lambertian_matrix"]}
{"id": "C05", "title": "A perfect mirror returns every ray specularly and transmits nothing", "statement": "In the Mirror redistribution matrix every column has exactly one entry equal to 1, it is in the reflection half (for front and for rear incidence), in the same theta ring and at azimuth + pi modulo phi_sym.", "quantifier": "every grid, every phi_symmetry = 2*pi/m, both sides", "why_tests_cant": "The unit test uses phi_symmetry = pi/4 only; other symmetries and odd azimuth counts take different branches of the folding.", "anchors": ["rayflare/matrix_formalism/ideal_cases.py:mirror_matrix"]}
{"id": "C06", "title": "The Lambertian interface follows the cosine law", "statement": "The fraction of power that the Lambertian interface sends into a polar ring [a, b] is the projected solid angle sin(b)^2 - sin(a)^2.", "quantifier": "every grid and ring", "why_tests_cant": "Tests only check that columns sum to one, any normalised distribution passes.", "anchors": ["rayflare/matrix_formalism/ideal_cases.py:lambertian_matrix"]}
{"id": "C07", "title": "The incident power vector has unit power in the bin of the incident direction", "statement": "make_v0 puts total power 1 at each wavelength; for a numeric azimuth it is all in the bin containing (theta_in, phi_in); for phi_in = 'all' it is shared equally over the azimuth bins of the ring containing theta_in; calculate_RAT folds any phi_in into the symmetry element first.", "quantifier": "every grid, every theta_in in [0, pi/2), every phi_in >= 0 or 'all', every number of wavelengths", "why_tests_cant": "Boundary azimuths (phi_in = phi_sym) are single points in a continuum.", "anchors": ["rayflare/matrix_formalism/multiply_matrices.py:make_v0", "rayflare/matrix_formalism/multiply_matrices.py:calculate_RAT"]}
{"id": "C08", "title": "Relabelling outgoing light as incoming light is a power-preserving bijection of the bins", "statement": "The down->up and up->down matrices have exactly one 1 in each column and each row, map ring i to its mirror ring and add pi to the azimuth, so that summing the power before and after crossing the bulk differs only by absorption.", "quantifier": "every grid and every phi_symmetry = 2*pi/m", "why_tests_cant": "Depends on parity of the azimuth bin counts and of m; one lost column silently loses power in all later passes.", "anchors": ["rayflare/matrix_formalism/multiply_matrices.py:out_to_in_matrix"]}
{"id": "C09", "title": "Energy is conserved by calculate_RAT", "statement": "If at every interface and side each column of (R, T, A) redistribution matrices sums to 1, then for every wavelength R + T + A_bulk + A_interfaces plus the power still travelling in the bulk equals the incident power, and when calculate_RAT returns that power is at most I_thresh.", "quantifier": "every matrix content, bulk thickness and absorption, any number of wavelengths, any number of passes; every grid whose relabelling conserves power (C08) and every incident direction that gets unit power (C07)", "why_tests_cant": "Needs an invariant over an unbounded number of passes and arbitrary matrices.", "anchors": ["rayflare/matrix_formalism/multiply_matrices.py:matrix_multiplication", "rayflare/matrix_formalism/multiply_matrices.py:calculate_RAT"]}
{"id": "C10", "title": "R, T and A are fractions", "statement": "With non-negative redistribution matrices whose columns sum to at most 1, all reported R, T, A_bulk and interface absorptions are non-negative and their sum never exceeds 1.", "quantifier": "every matrix content, wavelength and pass; every grid whose relabelling conserves power (C08) and every incident direction that gets unit power (C07)", "why_tests_cant": "Invariant over an unbounded loop.", "anchors": ["rayflare/matrix_formalism/multiply_matrices.py:matrix_multiplication"]}
{"id": "C11", "title": "Asking for profiles does not change R, T and bulk absorption", "statement": "calculate_RAT gives the same R, T and A_bulk whether or not a bulk or interface depth profile is requested (the code takes two different loops).", "quantifier": "every structure whose relabelling matrices conserve power, every matrix content, every number of passes", "why_tests_cant": "The two loops are separate code; agreement must hold pass by pass for unbounded passes.", "anchors": ["rayflare/matrix_formalism/multiply_matrices.py:matrix_multiplication"]}
{"id": "C12", "title": "The pass loop of calculate_RAT terminates", "statement": "If every round trip through the bulk loses at least a fixed fraction eps > 0 of the power then the loop stops, after at most ceil(ln(I_thresh)/ln(1-eps)) + 1 passes; without loss it need not stop.", "quantifier": "every matrix content and I_thresh > 0", "why_tests_cant": "Termination is a liveness property over unbounded iterations.", "anchors": ["rayflare/matrix_formalism/multiply_matrices.py:matrix_multiplication"]}
{"id": "C13", "title": "Adding wavelengths does not change the result at a given wavelength", "statement": "The R, T, A returned for one wavelength differ by at most I_thresh when other wavelengths are added to the same calculation (extra passes caused by another wavelength only add power that was still travelling).", "quantifier": "every set of wavelengths and every matrix content; every grid whose relabelling conserves power (C08) and every incident direction that gets unit power (C07)", "why_tests_cant": "Non-interference is a relation between two runs.", "anchors": ["rayflare/matrix_formalism/multiply_matrices.py:matrix_multiplication"]}
{"id": "C14", "title": "Bulk attenuation follows Beer-Lambert", "statement": "make_D attenuates bin (theta, phi) by exp(-alpha*w/|cos theta|), which is in [0, 1], equals 1 for alpha = 0, decreases with alpha and w, and crossing thickness w1 then w2 equals crossing w1 + w2.", "quantifier": "every alpha >= 0, thickness, and angle", "why_tests_cant": "Continuum of values.", "anchors": ["rayflare/matrix_formalism/multiply_matrices.py:make_D"]}
{"id": "C15", "title": "The bulk absorption profile integrates to the bulk absorption", "statement": "In every pass the depth profile returned for the bulk integrates (trapezoidal rule over the depth grid) to exactly the power absorbed in that pass, for every wavelength, for light travelling down and up.", "quantifier": "every depth grid, absorption coefficient and angular power distribution with non-zero raw integral", "why_tests_cant": "Continuum of grids and distributions.", "anchors": ["rayflare/matrix_formalism/multiply_matrices.py:bulk_profile_calc"]}
{"id": "C16", "title": "The shape of calculate_RAT's result depends only on the structure and options", "statement": "calculate_RAT always returns R, T and A_bulk (and, when profiles were requested, the per-interface absorption and the profiles), also when no light enters the bulk.", "quantifier": "every matrix content", "why_tests_cant": "Depends on run-time power values reaching a threshold.", "anchors": ["rayflare/matrix_formalism/multiply_matrices.py:matrix_multiplication"]}
{"id": "C17", "title": "Loading splits every matrix into its reflection and transmission halves without loss", "statement": "For every interface load_redistribution_matrices takes as reflection rows those that return into the incidence medium and as transmission rows the others, for front and for rear incidence: together they are all the rows of the stored matrix, each once.", "quantifier": "every matrix size, every number of interfaces", "why_tests_cant": "The rear branch swaps halves; an error shows only in multi-pass structures.", "anchors": ["rayflare/matrix_formalism/multiply_matrices.py:load_redistribution_matrices"]}
{"id": "C18", "title": "An interrupted first calculation is never mistaken for a finished one", "statement": "If no files existed before, and the process is killed at any point between two file writes, the next run either recomputes or loads matrices that all come from one completed computation.", "quantifier": "every crash point, every interface method and side, with or without profiles", "why_tests_cant": "All crash points must be covered.", "anchors": ["rayflare/utilities.py:get_matrices_or_paths", "rayflare/ray_tracing/rt.py:RT", "rayflare/transfer_matrix_method/tmm.py:TMM", "rayflare/rigorous_coupled_wave_analysis/rcwa.py:RCWA"]}
{"id": "C19", "title": "An interrupted overwrite never leaves a mixture that is later loaded", "statement": "If a calculation with overwrite=True is killed between two file writes, a later run with overwrite=False never loads the RT matrix of one run together with the A matrix of another.", "quantifier": "every crash point and history of runs", "why_tests_cant": "Crash-point property.", "anchors": ["rayflare/utilities.py:get_matrices_or_paths", "rayflare/ray_tracing/rt.py:RT"]}
{"id": "C20", "title": "Results of different interfaces never overwrite each other", "statement": "Files written for (interface name, side, quantity) are distinct for distinct triples, so matrices loaded for one interface and side are those last saved for it; with overwrite=False an existing result is returned unchanged.", "quantifier": "every pair of names and every history of save and load operations", "why_tests_cant": "All strings and all histories.", "anchors": ["rayflare/utilities.py:get_matrices_or_paths", "rayflare/matrix_formalism/multiply_matrices.py:load_redistribution_matrices"]}
{"id": "C21", "title": "After process_structure every matrix that calculate_RAT needs exists", "statement": "For every structure accepted by process_structure, calculate_RAT on the same options finds every file it loads (front for all interfaces, rear for all but the last).", "quantifier": "every list of interfaces and methods", "why_tests_cant": "All structures.", "anchors": ["rayflare/matrix_formalism/process_structure.py:process_structure", "rayflare/matrix_formalism/multiply_matrices.py:load_redistribution_matrices", "rayflare/matrix_formalism/multiply_matrices.py:matrix_multiplication"]}
{"id": "C22", "title": "Results reflect the options that were passed", "statement": "With overwrite=False the matrices used by a calculation are those that the passed options determine.", "quantifier": "every history of process_structure calls with differing options", "why_tests_cant": "History property.", "anchors": ["rayflare/utilities.py:get_matrices_or_paths", "rayflare/transfer_matrix_method/lookup_table.py:make_TMM_lookuptable"]}
{"id": "C23", "title": "Wavelength option normalisation", "statement": "After get_wavelength the option 'wavelength' is the user's 'wavelengths' if given and 'wavelength' otherwise, other options are unchanged, and calling it again changes nothing.", "quantifier": "every options dictionary", "why_tests_cant": "All dictionaries.", "anchors": ["rayflare/utilities.py:get_wavelength"]}
{"id": "C24", "title": "Ray-traced redistribution columns conserve rays", "statement": "In RT redistribution matrices, for every incidence bin that received at least one ray, the reflected + transmitted + absorbed fractions sum to exactly 1 and each entry is the fraction of that bin's rays that went to that outcome; every traced ray is counted exactly once.", "quantifier": "every list of traced rays (incidence bin, outgoing direction, absorption), any number of rays", "why_tests_cant": "All outcomes of the random process.", "anchors": ["rayflare/ray_tracing/rt.py:RT_wl"]}
{"id": "C25", "title": "Incidence bins that received no ray give zero columns", "statement": "A column of the RT redistribution matrix that received no ray is zero, so that it adds no power.", "quantifier": "every ray list leaving a bin empty, every prior memory content", "why_tests_cant": "Uninitialised memory happens to be zero in most test runs.", "anchors": ["rayflare/ray_tracing/rt.py:RT_wl"]}
{"id": "C26", "title": "Absorbed rays are never counted as reflected or transmitted", "statement": "A ray absorbed in an interface is recorded only in the absorption matrix, split over the interface layers in proportion to the layer absorption, and a ray that leaves is recorded in exactly one outgoing bin of the correct hemisphere.", "quantifier": "every ray outcome", "why_tests_cant": "All ray outcomes.", "anchors": ["rayflare/ray_tracing/rt.py:RT_wl", "rayflare/ray_tracing/rt.py:single_ray_interface"]}
{"id": "C27", "title": "Each traced ray conserves energy", "statement": "For every ray traced through a layered structure its final intensity + absorption in all bulk layers + absorption in all interfaces equals 1, where a ray stopped because its intensity fell below I_thresh has its remaining intensity (< I_thresh) written off and nothing else is lost.", "quantifier": "every sequence of interface outcomes and layer crossings of any length, every structure", "why_tests_cant": "Unbounded random histories.", "anchors": ["rayflare/ray_tracing/rt.py:single_ray_stack", "rayflare/ray_tracing/rt.py:traverse"]}
{"id": "C28", "title": "A ray is always in the medium its bookkeeping says", "statement": "While tracing, the ray's layer index stays within the structure, its next surface is the one bounding that layer on the side it is heading to, bulk absorption is only added to bulk layers (never to the incidence or transmission medium), and the ray ends only by leaving at the front, leaving at the rear, or being absorbed.", "quantifier": "every sequence of interface outcomes, any number of layers", "why_tests_cant": "State-machine invariant over unbounded histories.", "anchors": ["rayflare/ray_tracing/rt.py:single_ray_stack"]}
{"id": "C29", "title": "Ray-tracing R, T and A sum to one within the threshold", "statement": "rt_structure.calculate returns R + T + sum of A over layers and interfaces in [1 - I_thresh, 1] at every wavelength, R0 <= R, and every ray is counted in at most one of R and T.", "quantifier": "every number of rays and every ray outcome", "why_tests_cant": "All random outcomes.", "anchors": ["rayflare/ray_tracing/rt.py:parallel_inner", "rayflare/ray_tracing/rt.py:rt_structure.calculate"]}
{"id": "C30", "title": "Absorption within a layer integrates to the layer absorption", "statement": "For every ray and bulk layer the depth profile integrates (trapezoidal rule over that layer's depth points) to the absorption reported for the layer if the layer has at least two depth points and absorbs.", "quantifier": "every sequence of crossings in both directions", "why_tests_cant": "Unbounded histories.", "anchors": ["rayflare/ray_tracing/rt.py:traverse", "rayflare/ray_tracing/rt.py:single_ray_stack"]}
{"id": "C31", "title": "The depth grid is partitioned between the bulk layers", "statement": "Every depth position of the ray-tracing grid inside the structure belongs to exactly one bulk layer, and the depths passed to a layer are measured from its own top surface.", "quantifier": "every list of layer widths and every grid spacing", "why_tests_cant": "All widths.", "anchors": ["rayflare/ray_tracing/rt.py:single_ray_stack", "rayflare/ray_tracing/rt.py:parallel_inner", "rayflare/ray_tracing/rt.py:rt_structure.calculate"]}
{"id": "C32", "title": "Crossing a layer attenuates by Beer-Lambert", "statement": "traverse multiplies the intensity by exp(-alpha*width/|cos theta|), never increases it, reports the absorbed difference as a non-negative profile, and stops the ray exactly when the intensity is below I_thresh.", "quantifier": "every intensity, width, alpha, angle, depth grid and direction", "why_tests_cant": "Continuum.", "anchors": ["rayflare/ray_tracing/rt.py:traverse"]}
{"id": "C33", "title": "Reflection and refraction obey the laws of geometrical optics", "statement": "Hitting a surface from its front, a unit direction vector is sent to a unit vector in the plane of incidence; on reflection the normal component changes sign and the tangential component is kept; on transmission the tangential component is scaled by n0/n1 (Snell) and the ray continues to the other side.", "quantifier": "every direction, surface normal and real index pair", "why_tests_cant": "Continuum.", "anchors": ["rayflare/ray_tracing/rt.py:decide_RT_Fresnel", "rayflare/ray_tracing/rt.py:decide_RT_TMM"]}
{"id": "C34", "title": "Total internal reflection (Fresnel mode)", "statement": "With Fresnel coefficients (no lookup table), beyond the critical angle a ray is always reflected, whatever the random number; whenever transmission is possible the arcsine and the square root of the transmitted direction are defined.", "quantifier": "every index pair, angle and random draw", "why_tests_cant": "Continuum.", "anchors": ["rayflare/ray_tracing/rt.py:decide_RT_Fresnel", "rayflare/ray_tracing/rt.py:calc_R"]}
{"id": "C35", "title": "Fresnel reflectances are probabilities", "statement": "calc_R returns a value in [0, 1] for s, p and unpolarised light, unpolarised is the mean of s and p, R is 0 at an index-matched interface and symmetric under exchange of media with the refracted angle.", "quantifier": "every real index pair and incidence angle without total internal reflection", "why_tests_cant": "Continuum.", "anchors": ["rayflare/ray_tracing/rt.py:calc_R"]}
{"id": "C36", "title": "The outcome of a random draw partitions into R, T and A", "statement": "With a lookup table, a draw reflects, transmits or absorbs for sets of draws of length R, T and 1-R-T; if R + T >= 1 absorption never happens and if R >= 1 the ray is always reflected.", "quantifier": "every R, T and every draw", "why_tests_cant": "Probabilistic statement over all draws.", "anchors": ["rayflare/ray_tracing/rt.py:decide_RT_TMM"]}
{"id": "C37", "title": "Ray-surface intersection is sound and nearest", "statement": "check_intersect returns False iff no triangle of the surface is hit in front of the ray; otherwise the returned point is on the ray at positive parameter, inside the triangle hit, and no other hit triangle is nearer; the returned normal is the hit triangle's and the returned angle is the angle to it.", "quantifier": "every surface, origin and direction", "why_tests_cant": "Continuum of geometries.", "anchors": ["rayflare/ray_tracing/rt.py:check_intersect"]}
{"id": "C38", "title": "Periodic boundaries keep the ray inside the unit cell", "statement": "For a ray inside the unit cell that moves sideways, the exit point computed by exit_side lies on the first cell wall it reaches and after applying the returned translation it is on the opposite wall of the same cell at the same height.", "quantifier": "every cell size, position and non-vertical direction", "why_tests_cant": "Continuum.", "anchors": ["rayflare/ray_tracing/rt.py:exit_side", "rayflare/ray_tracing/rt.py:single_interface_check"]}
{"id": "C39", "title": "A ray that misses a surface is not traced forever", "statement": "single_interface_check gives up after 101 consecutive initial misses and reports the ray as reflected; between two hits it makes a bounded number of iterations; in all cases the outcome is reflected, transmitted or absorbed with a matching outgoing direction, an absorbed ray always carries layer absorption, and no undefined angle is ever returned after a hit.", "quantifier": "every sequence of intersection results and interface decisions", "why_tests_cant": "All schedules of intersection results.", "anchors": ["rayflare/ray_tracing/rt.py:single_interface_check"]}
{"id": "C40", "title": "Moving and re-randomising a surface keeps its shape", "statement": "RTSurface.shift moves all points and z range and the coverage height by the same amount; a following refresh (new random heights) keeps the covered base level at the coverage height.", "quantifier": "every surface and every sequence of shift and refresh calls", "why_tests_cant": "History property.", "anchors": ["rayflare/ray_tracing/rt.py:RTSurface.shift", "rayflare/ray_tracing/rt.py:RTSurface.refresh"]}
{"id": "C41", "title": "Surface area", "statement": "RTSurface.find_area stores the total area of the triangles of the surface divided by the area of the unit cell.", "quantifier": "every triangulated surface", "why_tests_cant": "Right-angled or unit-edge examples hide the defect.", "anchors": ["rayflare/ray_tracing/rt.py:RTSurface.find_area"]}
{"id": "C42", "title": "V-groove texture has the requested width", "statement": "V_grooves(width, angle, direction) gives a groove whose period is width, whose facets make the requested angle with the horizontal, and which is the same all along the unit cell.", "quantifier": "every width > 0 and angle", "why_tests_cant": "The default width 1 hides the dependence.", "anchors": ["rayflare/textures/standard_rt_textures.py:V_grooves"]}
{"id": "C43", "title": "Regular pyramids have the requested facet angle and size", "statement": "regular_pyramids(angle, upright, size) gives a square cell of the given size whose four facets make the given angle with the horizontal; the rear surface is the mirror image of the front one.", "quantifier": "every angle in (0, pi/2), size > 0 and orientation", "why_tests_cant": "Continuum.", "anchors": ["rayflare/textures/standard_rt_textures.py:regular_pyramids"]}
{"id": "C44", "title": "A texture from a height map puts each height at its grid position", "statement": "heights_texture(z, x_width, y_width) places z[i][j] at the i-th x and j-th y position (or consistently the transpose).", "quantifier": "every height array", "why_tests_cant": "Square symmetric maps hide the mismatch.", "anchors": ["rayflare/textures/define_textures.py:heights_texture"]}
{"id": "C45", "title": "Front and rear textures are mirror images", "statement": "The rear surface of a texture built with xyz_texture is the front surface reflected in z = 0, including the coverage height.", "quantifier": "every point set and coverage height", "why_tests_cant": "Coverage height 0 hides the defect.", "anchors": ["rayflare/textures/define_textures.py:xyz_texture", "rayflare/textures/standard_rt_textures.py:planar_surface"]}
{"id": "C46", "title": "TMM redistribution columns conserve energy", "statement": "For every incidence bin whose angle is not exactly critical, the column of the TMM redistribution matrix contains R in the specular reflection bin and T in the refraction bin (beyond the critical angle: the bin next to the horizon) and nothing else, so that it sums to R + T except for a transmitted part of at most 1e-8 dropped beyond the critical angle; the absorption is stored unchanged.", "quantifier": "every grid, every solver output and both sides", "why_tests_cant": "All solver outputs and grids.", "anchors": ["rayflare/transfer_matrix_method/tmm.py:TMM"]}
{"id": "C47", "title": "Rear incidence sees the same physical stack as front incidence", "statement": "For rear incidence the TMM method treats as coherent exactly the layers that the user's coherency list marks coherent, as for front incidence.", "quantifier": "every layer stack and coherency list", "why_tests_cant": "Palindromic coherency lists hide the defect.", "anchors": ["rayflare/transfer_matrix_method/tmm.py:TMM", "rayflare/transfer_matrix_method/lookup_table.py:make_TMM_lookuptable"]}
{"id": "C48", "title": "Unpolarised light is the mean of s and p", "statement": "tmm_structure.calculate with pol='u' returns R, T, A_per_layer and profile coefficients that are the means of the s and p results.", "quantifier": "every stack, wavelength, angle and solver output", "why_tests_cant": "Normal incidence (s = p) hides the defect.", "anchors": ["rayflare/transfer_matrix_method/tmm.py:tmm_structure.calculate"]}
{"id": "C49", "title": "Incoherent layer absorptions add up to the total absorption", "statement": "For a partly incoherent stack the absorptions per layer are non-negative and add up to A = 1 - R - T.", "quantifier": "every solver output", "why_tests_cant": "All solver outputs.", "anchors": ["rayflare/transfer_matrix_method/tmm.py:tmm_structure.calculate"]}
{"id": "C50", "title": "Coherency list construction", "statement": "The coherency list handed to the solver has one entry per medium, the outer media are incoherent, the i-th layer keeps the user's i-th entry, and a list of wrong length is rejected.", "quantifier": "every list and number of layers", "why_tests_cant": "All lists.", "anchors": ["rayflare/transfer_matrix_method/tmm.py:build_coh_list"]}
{"id": "C51", "title": "Lookup tables label layers in physical order for both sides", "statement": "In the TMM lookup table the absorption and profile data stored under layer l are those of the l-th physical layer for front and for rear incidence; 'u' data are means of s and p; stored values are non-negative.", "quantifier": "every stack, solver output and choice of profile layers", "why_tests_cant": "Symmetric stacks hide a swap.", "anchors": ["rayflare/transfer_matrix_method/lookup_table.py:make_TMM_lookuptable"]}
{"id": "C52", "title": "Reciprocal lattice", "statement": "The reciprocal lattice vectors used for diffraction orders satisfy b_i . a_j = 2 pi delta_ij, and get_order_directions and group_diffraction_orders report the same in-plane wave vector lengths.", "quantifier": "every non-degenerate pair of unit cell vectors", "why_tests_cant": "Continuum.", "anchors": ["rayflare/analytic/diffraction.py:group_diffraction_orders", "rayflare/analytic/diffraction.py:get_order_directions"]}
{"id": "C53", "title": "Grouping diffraction orders conserves power", "statement": "group_diffraction_orders keeps the total power at every wavelength, its multiplicities are the sizes of the groups and add up to the number of orders, orders with the same in-plane wave-vector length share a group, orders in one group have the same length to 10 decimals, and the reported lengths are distinct, increasing and right to 10 decimals.", "quantifier": "every list of orders and powers", "why_tests_cant": "All lists.", "anchors": ["rayflare/analytic/diffraction.py:group_diffraction_orders"]}
{"id": "C54", "title": "Different diffraction directions get different azimuths", "statement": "Diffraction orders leaving in opposite azimuthal directions are put in different bins when phi_symmetry = 2*pi.", "quantifier": "every order and incidence angle", "why_tests_cant": "With symmetry pi or smaller the error is folded away.", "anchors": ["rayflare/analytic/diffraction.py:get_order_directions", "rayflare/rigorous_coupled_wave_analysis/rcwa.py:RCWA_wl"]}
{"id": "C55", "title": "Polarisation specification", "statement": "process_pol maps 's', 'p', 'u' to amplitude pairs of unit norm, passes pairs through, and rejects everything else.", "quantifier": "every string", "why_tests_cant": "All strings.", "anchors": ["rayflare/rigorous_coupled_wave_analysis/rcwa.py:process_pol"]}
{"id": "C56", "title": "RCWA redistribution columns conserve energy", "statement": "For every incidence bin and side, the column of the RCWA redistribution matrix sums to R + T over the orders kept, several orders falling in one bin add up, and with the absorption the column sums to 1.", "quantifier": "every grid, side, solver output", "why_tests_cant": "Front-side tests cannot see rear-side indexing.", "anchors": ["rayflare/rigorous_coupled_wave_analysis/rcwa.py:RCWA_wl", "rayflare/rigorous_coupled_wave_analysis/rcwa.py:RCWA_wl_inkstone"]}
{"id": "C57", "title": "Rear incidence on a grating sees the same gratings in reverse order", "statement": "For rear incidence each physical layer keeps its own geometry.", "quantifier": "every list of layers and geometries", "why_tests_cant": "Single-layer gratings hide the defect.", "anchors": ["rayflare/rigorous_coupled_wave_analysis/rcwa.py:RCWA"]}
{"id": "C58", "title": "RCWA layer absorptions add up", "statement": "If the power flux is continuous at the first interface, no light comes back from the last medium and no layer has gain, then R + T + the absorptions per layer equal 1 and absorptions per layer are non-negative. With gain the sum exceeds 1 by the gain.", "quantifier": "every number of layers and fluxes", "why_tests_cant": "All solver outputs.", "anchors": ["rayflare/rigorous_coupled_wave_analysis/rcwa.py:rcwa_absorption_per_layer", "rayflare/rigorous_coupled_wave_analysis/rcwa.py:rcwa_rat"]}
{"id": "C59", "title": "Every grating shape gets its own material", "statement": "Each shape in each layer is assigned the optical constants of the material given for it.", "quantifier": "every set of layers and geometries", "why_tests_cant": "Name clashes are input dependent.", "anchors": ["rayflare/rigorous_coupled_wave_analysis/rcwa.py:necessary_materials", "rayflare/rigorous_coupled_wave_analysis/rcwa.py:initialise_S"]}
{"id": "C60", "title": "Repeated calculations use the same geometry", "statement": "Running a calculation does not modify the user's geometry, so repeating it (more wavelengths, second calculate call) uses the same shapes.", "quantifier": "every geometry and number of calls", "why_tests_cant": "History property.", "anchors": ["rayflare/rigorous_coupled_wave_analysis/rcwa.py:initialise_S_inkstone"]}
{"id": "C61", "title": "Layer widths set by the user are the ones used", "statement": "After set_widths(w) every later calculate uses the widths w until set_widths is called again.", "quantifier": "every sequence of set_widths and calculate calls", "why_tests_cant": "History property.", "anchors": ["rayflare/rigorous_coupled_wave_analysis/rcwa.py:rcwa_structure.set_widths", "rayflare/rigorous_coupled_wave_analysis/rcwa.py:rcwa_structure.update_oc", "rayflare/transfer_matrix_method/tmm.py:tmm_structure.set_widths"]}
{"id": "C62", "title": "Profiles returned belong to the options passed", "statement": "rcwa_structure.calculate_profile(options) returns R, A, T and profile for these options whatever was calculated before.", "quantifier": "every history of calculate, set_widths, edit_geom_list and calculate_profile calls", "why_tests_cant": "History property.", "anchors": ["rayflare/rigorous_coupled_wave_analysis/rcwa.py:rcwa_structure.calculate_profile"]}
{"id": "C63", "title": "Layer numbering is the same in all methods", "statement": "get_fields_z_integral integrates the layer with the given layer_index under the numbering (0 = incidence medium) used by get_fields and the profile functions.", "quantifier": "every layer index", "why_tests_cant": "Only an index convention comparison between methods reveals it.", "anchors": ["rayflare/rigorous_coupled_wave_analysis/rcwa.py:rcwa_structure.get_fields_z_integral", "rayflare/rigorous_coupled_wave_analysis/rcwa.py:rcwa_structure.get_fields"]}
{"id": "C64", "title": "Generation profile function places each profile at its own depth", "statement": "make_absorption_function returns front, bulk and rear profiles at increasing depth, the front interface's data at the front positions and the rear interface's at the rear positions, also if only one of them was requested.", "quantifier": "every structure and every subset of requested profiles", "why_tests_cant": "All subsets.", "anchors": ["rayflare/utilities.py:make_absorption_function", "rayflare/matrix_formalism/multiply_matrices.py:matrix_multiplication"]}
{"id": "C65", "title": "Front and rear profiles of an interface have the same depth points", "statement": "The profiles computed for front and rear incidence of one interface have the same number of depth points so that they can be added.", "quantifier": "every list of layer widths, profile layers and spacing", "why_tests_cant": "Widths that are multiples of the spacing hide it.", "anchors": ["rayflare/transfer_matrix_method/tmm.py:TMM", "rayflare/rigorous_coupled_wave_analysis/rcwa.py:RCWA"]}
{"id": "C66", "title": "Polar summaries keep power", "statement": "theta_summary averages over incidence azimuths and sums over exit azimuths, so each column of the summary sums to the mean of the column sums it summarises.", "quantifier": "every matrix and grid", "why_tests_cant": "With one azimuth bin per ring sum and mean coincide.", "anchors": ["rayflare/angles.py:theta_summary", "rayflare/angles.py:theta_summary_A"]}
{"id": "C67", "title": "Interface construction", "statement": "Interface accepts exactly the documented methods and rejects others; layers, widths and materials stay parallel.", "quantifier": "every method string and layer list", "why_tests_cant": "All strings and lists.", "anchors": ["rayflare/structure.py:Interface"]}
{"id": "C68", "title": "Lookup-table names used for tracing are the names written", "statement": "For every textured surface with layers rt_structure writes a lookup table under a name that is unique within the structure and reads back the same file when tracing.", "quantifier": "every list of surfaces and names", "why_tests_cant": "All names.", "anchors": ["rayflare/ray_tracing/rt.py:make_lookuptable_rt_structure", "rayflare/ray_tracing/rt.py:make_tmm_args"]}
{"id": "C69", "title": "A surface-only ray-tracing matrix interacts with exactly one surface", "statement": "single_ray_interface traces the ray through one surface interaction and reports reflected, transmitted or absorbed with the outgoing direction in the matching hemisphere.", "quantifier": "every surface outcome", "why_tests_cant": "All outcomes.", "anchors": ["rayflare/ray_tracing/rt.py:single_ray_interface"]}
{"id": "C70", "title": "A folded azimuth of exactly 0 is binned in the ring of its theta", "statement": "The azimuths returned by fold_phi include 0; a direction with azimuth 0 is put in a bin of the ring that contains its theta.", "quantifier": "every grid and every theta in (0, pi]", "why_tests_cant": "Measure-zero case in random tests, but reached exactly by mirrors, planar stacks and diffraction orders.", "anchors": ["rayflare/angles.py:overall_bin", "rayflare/angles.py:fold_phi"]}
{"id": "C71", "title": "Polar summaries of R/T and of absorption are on the same scale", "statement": "If the columns of an RT matrix and its absorption matrix sum to 1 together, then theta_summary and theta_summary_A of them sum to 1 for each incidence ring.", "quantifier": "every grid and every pair of matrices", "why_tests_cant": "With one azimuth bin per ring sum and mean coincide.", "anchors": ["rayflare/angles.py:theta_summary", "rayflare/angles.py:theta_summary_A"]}
{"id": "C72", "title": "A Lambertian interface lit from the rear scatters back to the rear", "statement": "lambertian_matrix(..., front_or_rear='rear') puts all power in the rows that return light into the medium it came from (the lower hemisphere), so that load_redistribution_matrices finds it in the reflection half.", "quantifier": "every grid", "why_tests_cant": "The rear branch only changes the file name; tests do not load it.", "anchors": ["rayflare/matrix_formalism/ideal_cases.py:lambertian_matrix"]}
{"id": "C73", "title": "The absorption profile of an interface integrates to its absorption", "statement": "In every pass the depth profile attributed to an interface by calculate_RAT integrates (trapezoidal rule on the depth grid) to the power absorbed by the layers of that interface in that pass, given tabulated profiles whose integrals are the stored intgr values.", "quantifier": "every number of bins, layers and depth points, every power distribution", "why_tests_cant": "Continuum of distributions; the scaling divides by data that can be 0.", "anchors": ["rayflare/matrix_formalism/multiply_matrices.py:matrix_multiplication"]}
{"id": "C74", "title": "Profiles and matrices loaded together belong together", "statement": "The redistribution matrices and the absorption profiles that are loaded together for an interface and side come from the same computation, whatever the sequence of completed runs with and without profiles and with and without overwrite.", "quantifier": "every history of completed process_structure calls", "why_tests_cant": "only particular call histories can be tested; the mixture arises from a sequence of three calls with different settings", "anchors": "utilities.py:268-303; rt.py:245-260; tmm.py:345-365; rcwa.py:276-308"}
{"id": "C75", "title": "A run killed while writing can be resumed", "statement": "After a process was killed in the middle of writing a result file, calling process_structure again on the same directory completes and leaves loadable results.", "quantifier": "every kill point including inside a write, every structure", "why_tests_cant": "a kill inside a file write cannot be produced reliably in a unit test", "anchors": "utilities.py:268-303; rt.py:245-246; tmm.py:345-346; lookup_table.py:57-60"}
{"id": "C76", "title": "Total internal reflection with a lookup table", "statement": "When a lookup table gives the reflectance, a ray beyond the critical angle of the two bulk media is still never transmitted.", "quantifier": "all tables, indices, incidence directions beyond the critical angle and random draws", "why_tests_cant": "depends on how table angles lie relative to the critical angle; sampled tests rarely hit the gap", "anchors": ["rayflare/ray_tracing/rt.py:1902-1932", "rayflare/transfer_matrix_method/lookup_table.py:60-75"]}
{"id": "C77", "title": "Ray power follows the optical path", "statement": "After k surface interactions the power of a ray started outside the structure is exp(-sum of alpha*width/|cos theta| over the crossed layers), and the absorption of each layer is the sum of the power lost in the crossings of that layer only.", "quantifier": "every sequence of interface outcomes of any length, any number of layers", "why_tests_cant": "Unbounded random histories.", "anchors": ["rayflare/ray_tracing/rt.py:single_ray_stack", "rayflare/ray_tracing/rt.py:traverse"]}
{"id": "C78", "title": "Ray tracing ends in an absorbing structure", "statement": "If every bulk layer absorbs (alpha*width >= c > 0), a ray is finished after at most -ln(I_thresh)/c surface interactions whatever the interfaces do. In a transparent layer with totally reflecting faces it never ends.", "quantifier": "every sequence of interface outcomes, every absorbing stack", "why_tests_cant": "Termination of an unbounded loop.", "anchors": ["rayflare/ray_tracing/rt.py:single_ray_stack"]}
{"id": "C79", "title": "A ray started inside a layer is attenuated on the way to the first surface", "statement": "A ray started in bulk layer initial_material loses power by Beer-Lambert absorption on its first crossing.", "quantifier": "every start layer and direction", "why_tests_cant": "The claim covers every starting layer; the repository tests start outside the structure.", "anchors": ["rayflare/ray_tracing/rt.py:single_ray_stack"]}
{"id": "C80", "title": "calculate_RAT reports each quantity from the light that went there", "statement": "R, T, bulk absorption and front/back interface absorption equal the sums over passes obtained by following the incident power through the stored matrices: reflection and transmission read from the upward and downward rows, attenuation exp(-alpha*thickness/|cos theta|) on each bulk crossing, front/back absorption from the matching interface. The number of passes is the first at which no wavelength has more than I_thresh left in the bulk.", "quantifier": "every angular grid, wavelength list, stored matrices of the right shape and threshold", "why_tests_cant": "The number of passes is unbounded and the data are arbitrary; total energy tests do not see power attributed to the wrong place.", "anchors": ["rayflare/matrix_formalism/multiply_matrices.py:matrix_multiplication", "rayflare/matrix_formalism/multiply_matrices.py:append_per_pass_info"]}
{"id": "C81", "title": "Default ray directions populate every incidence bin", "statement": "With regular (non-random) ray directions and at least one ray position per bin (n_rays >= number of incidence bins x nx x ny) every column of the RT redistribution matrices, front and rear, conserves power exactly.", "quantifier": "every angular grid whose phi_symmetry divides the circle, every nx, ny, n_rays large enough, every traced outcome", "why_tests_cant": "Quantifies over all grids, densities and outcomes of the random process; the rear side relies on the mirror symmetry of the grid.", "anchors": ["rayflare/ray_tracing/rt.py:RT", "rayflare/ray_tracing/rt.py:RT_wl"]}
{"id": "C82", "title": "Local incidence angles of absorbed rays are recorded in the right ring", "statement": "local_angle_mat gives for every incidence bin the fraction of its absorbed rays whose local angle lies in each polar ring; columns with absorbed rays sum to 1, others are zero; intgr is the mean interface absorptance of the absorbed rays.", "quantifier": "every list of traced rays", "why_tests_cant": "All outcomes; the error for exactly normal local incidence wraps around to the grazing ring without any exception.", "anchors": ["rayflare/ray_tracing/rt.py:RT_wl"]}
{"id": "C83", "title": "The power of absorbed rays is split over layers ray by ray", "statement": "The interface-layer absorption recorded for an incidence bin is the average over its rays of the share of each layer in that ray's interface absorption.", "quantifier": "every list of absorbed rays with any per-layer absorptances", "why_tests_cant": "Totals are conserved either way, so energy balance tests pass.", "anchors": ["rayflare/ray_tracing/rt.py:RT_wl"]}
{"id": "C84", "title": "Stored triangles and normals always belong to the current points", "statement": "After any sequence of shift and refresh calls the stored triangles, the stored facet normals (unit, perpendicular to the facet, pointing up), the z range and the cell size are those of the current points, and x and y of the points have not changed.", "quantifier": "every surface with a counter-clockwise triangulation and every finite sequence of shift and refresh calls", "why_tests_cant": "History property over unbounded sequences; shift does not recompute the normals.", "anchors": ["rayflare/ray_tracing/rt.py:RTSurface.__init__", "rayflare/ray_tracing/rt.py:RTSurface.shift", "rayflare/ray_tracing/rt.py:RTSurface.refresh"]}
{"id": "C85", "title": "Random heights are applied to both sides of a texture", "statement": "A texture built with a height_distribution draws new heights for the front and for the rear surface.", "quantifier": "every texture function, distribution and number of refreshes", "why_tests_cant": "Random; statistics of rear incidence only.", "anchors": ["rayflare/textures/standard_rt_textures.py:regular_pyramids", "rayflare/textures/define_textures.py:xyz_texture"]}
{"id": "C86", "title": "Rough pyramids follow the pyramid plus bounded noise", "statement": "Every point of rough_pyramids off the cell border has the height of the ideal pyramid plus a noise between 0 and ds*tan(noise_angle), with the sign of the orientation; border points have height 0; the points are the regular grid, or the drawn points and the corners.", "quantifier": "every angle, size, noise angle, number of points, orientation and all random draws in [0, 1)", "why_tests_cant": "Random draws; continuum of parameters.", "anchors": ["rayflare/textures/standard_rt_textures.py:rough_pyramids"]}
{"id": "C87", "title": "Rough planar surface has bounded noise and flat borders", "statement": "Every point of rough_planar_surface off the border has a height between 0 and ds*tan(noise_angle); border points have height 0; the points are the regular grid, or the drawn points and the corners.", "quantifier": "every size, noise angle, number of points and all random draws in [0, 1)", "why_tests_cant": "Random draws; continuum of parameters.", "anchors": ["rayflare/textures/standard_rt_textures.py:rough_planar_surface"]}
{"id": "C88", "title": "Hemisphere texture lies on the (stretched, lowered) sphere", "statement": "Every point of hemisphere_surface inside the cap circle lies on the sphere lowered by offset and stretched in z, all others have a height between 0 and the noise height, 0 on the border; no grid point inside the cap or on the border is lost.", "quantifier": "every size, radius > offset >= 0, stretch > 0, noise angle, orientation and draws", "why_tests_cant": "Continuum of parameters.", "anchors": ["rayflare/textures/standard_rt_textures.py:hemisphere_surface"]}
{"id": "C89", "title": "Textures fill the requested unit cell", "statement": "The points of each standard texture lie in [0, size] x [0, size] and reach its sides, so Lx = Ly = size.", "quantifier": "every texture function and all its parameters", "why_tests_cant": "Continuum of parameters; caps wider than the cell are not tested.", "anchors": ["rayflare/textures/standard_rt_textures.py:regular_pyramids", "rayflare/textures/standard_rt_textures.py:planar_surface", "rayflare/textures/standard_rt_textures.py:rough_pyramids", "rayflare/textures/standard_rt_textures.py:rough_planar_surface", "rayflare/textures/standard_rt_textures.py:hemisphere_surface"]}
{"id": "C90", "title": "Stored profiles are labelled with their depth", "statement": "In the profile saved by TMM the value under coordinate z is the absorption at depth z of the layers in the order in which light meets them.", "quantifier": "every stack, spacing, choice of layers and side", "why_tests_cant": "Profiles symmetric about the middle of the layer hide a reversed label.", "anchors": ["rayflare/transfer_matrix_method/tmm.py:TMM"]}
{"id": "C91", "title": "Profile of an incoherent layer starts from the light that reaches it", "statement": "The analytic absorption function of an incoherent layer is Beer-Lambert decay of the light that reaches the layer: neither reflected nor absorbed before.", "quantifier": "every stack, coherency list and solver output", "why_tests_cant": "All stacks; weakly reflecting ones hide it.", "anchors": ["rayflare/transfer_matrix_method/tmm.py:tmm_structure.calculate"]}
{"id": "C92", "title": "Light at exactly the critical angle is kept", "statement": "At exactly critical incidence the column of the TMM redistribution matrix contains R among the reflected and T among the transmitted directions.", "quantifier": "every grid, side and solver output", "why_tests_cant": "A single angle of a continuum.", "anchors": ["rayflare/transfer_matrix_method/tmm.py:TMM"]}
{"id": "C93", "title": "Lookup tables honour the list of sides", "statement": "make_TMM_lookuptable with any list of sides stores under each side the result for light from that side.", "quantifier": "every list of sides", "why_tests_cant": "Only the default list is tested.", "anchors": ["rayflare/transfer_matrix_method/lookup_table.py:make_TMM_lookuptable"]}
{"id": "C94", "title": "Unknown polarisations are rejected", "statement": "tmm_structure.calculate raises an error for a polarisation other than s, p and u.", "quantifier": "every string", "why_tests_cant": "All strings.", "anchors": ["rayflare/transfer_matrix_method/tmm.py:tmm_structure.calculate"]}
{"id": "C95", "title": "Depth points of a profile", "statement": "The profile over all layers is taken at every point of the depth grid once; the profile of one layer exactly at the grid points inside this layer.", "quantifier": "every list of widths and every spacing", "why_tests_cant": "Continuum of widths.", "anchors": ["rayflare/transfer_matrix_method/tmm.py:tmm_structure.calculate"]}
{"id": "C96", "title": "tmm_structure describes the widths in use", "statement": "After any sequence of set_widths calls the stack that is solved and the attribute width are those of the last widths.", "quantifier": "every sequence of calls", "why_tests_cant": "History property.", "anchors": ["rayflare/transfer_matrix_method/tmm.py:tmm_structure.set_widths", "rayflare/transfer_matrix_method/tmm.py:tmm_structure.__init__"]}
{"id": "C97", "title": "Every diffraction order once", "statement": "get_order_directions returns every pair (m1, m2) with both indices at most m_max in size, exactly once.", "quantifier": "every m_max", "why_tests_cant": "All m_max.", "anchors": ["rayflare/analytic/diffraction.py:get_order_directions"]}
{"id": "C98", "title": "Grating equation", "statement": "Each order has the in-plane frequency of the incident wave plus its grating vector; in each medium it propagates at the angle with n sin(theta) = wl |f|, or is stored at exactly pi/2 when evanescent; the zero order is specular in reflection and obeys Snell's law in transmission.", "quantifier": "every wavelength, pair of indices, incidence direction, lattice and order", "why_tests_cant": "Continuum, and the boundary between propagating and evanescent orders.", "anchors": ["rayflare/analytic/diffraction.py:get_order_directions", "rayflare/rigorous_coupled_wave_analysis/rcwa.py:RCWA_wl"]}
{"id": "C99", "title": "Degeneracy counts the different powers in a group", "statement": "The degeneracy reported by group_diffraction_orders is the number of different powers collapsed into each group of orders.", "quantifier": "every list of orders and powers", "why_tests_cant": "All lists; tests use one wavelength.", "anchors": ["rayflare/analytic/diffraction.py:group_diffraction_orders"]}
{"id": "C100", "title": "RCWA matrices contain numbers only", "statement": "Every entry of an RCWA redistribution matrix is a number, also for structures that do not reflect.", "quantifier": "every grid, side, lattice and solver output", "why_tests_cant": "Tests use structures that reflect.", "anchors": ["rayflare/rigorous_coupled_wave_analysis/rcwa.py:RCWA_wl", "rayflare/rigorous_coupled_wave_analysis/rcwa.py:RCWA_wl_inkstone"]}
{"id": "C101", "title": "RCWA and TMM agree on flat structures", "statement": "For a flat structure with the same R, T and absorption the RCWA matrix and the TMM matrix have the same columns, so that the two methods can be mixed in one stack.", "quantifier": "every grid, symmetry range, direction, R and T", "why_tests_cant": "Comparisons of totals do not see the azimuth bin.", "anchors": ["rayflare/rigorous_coupled_wave_analysis/rcwa.py:RCWA_wl", "rayflare/transfer_matrix_method/tmm.py:TMM"]}
{"id": "C102", "title": "Stored RCWA profiles are labelled with their depth", "statement": "In the profile saved by RCWA the value under coordinate z is the absorption at depth z.", "quantifier": "every stack, spacing, choice of layers and side", "why_tests_cant": "Profiles symmetric about the middle of the layer hide a reversed label.", "anchors": ["rayflare/rigorous_coupled_wave_analysis/rcwa.py:RCWA", "rayflare/rigorous_coupled_wave_analysis/rcwa.py:RCWA_wl"]}
{"id": "C103", "title": "Results already returned stay as they are", "statement": "A dictionary returned by calculate or calculate_profile is not changed by later calls on the same object.", "quantifier": "every history of calls", "why_tests_cant": "History property with aliasing.", "anchors": ["rayflare/rigorous_coupled_wave_analysis/rcwa.py:rcwa_structure.calculate", "rayflare/rigorous_coupled_wave_analysis/rcwa.py:rcwa_structure.calculate_profile"]}
{"id": "C104", "title": "An rcwa_structure can be used for other wavelengths", "statement": "calculate and calculate_profile accept any list of wavelengths and use the optical constants of these wavelengths.", "quantifier": "every pair of wavelength lists (construction and call)", "why_tests_cant": "All pairs of lengths, and depends on the numpy version.", "anchors": ["rayflare/rigorous_coupled_wave_analysis/rcwa.py:rcwa_structure.calculate"]}
{"id": "C105", "title": "S4 options that are not given take their defaults", "statement": "Every S4 option missing from the user options has its documented default, in every method.", "quantifier": "every subset of given options", "why_tests_cant": "All subsets and all methods.", "anchors": ["rayflare/rigorous_coupled_wave_analysis/rcwa.py:rcwa_structure.__init__", "rayflare/rigorous_coupled_wave_analysis/rcwa.py:rcwa_structure.make_S"]}
{"id": "C106", "title": "Absorption per order is available with both solvers", "statement": "calculate with A_per_order=True returns the absorption per order with S4 and with Inkstone.", "quantifier": "every structure and option set", "why_tests_cant": "Needs both solvers installed.", "anchors": ["rayflare/rigorous_coupled_wave_analysis/rcwa.py:rcwa_structure.calculate", "rayflare/rigorous_coupled_wave_analysis/rcwa.py:RCWA_structure_wl_inkstone"]}
{"id": "C107", "title": "Field methods use the wavelength asked for", "statement": "get_fourier_epsilon, get_fields, get_fields_unit_cell and get_fields_z_integral use the optical constants at the wavelength passed.", "quantifier": "every wavelength", "why_tests_cant": "All wavelengths, including ones that are not stored.", "anchors": ["rayflare/rigorous_coupled_wave_analysis/rcwa.py:rcwa_structure.get_fields", "rayflare/rigorous_coupled_wave_analysis/rcwa.py:rcwa_structure.get_fourier_epsilon"]}
{"id": "C108", "title": "Layer 0 is the incidence medium for the field methods", "statement": "get_fields and get_fields_unit_cell with layer_index=0 return the fields in the incidence medium.", "quantifier": "every structure and depth", "why_tests_cant": "Boundary value of an index over all structures.", "anchors": ["rayflare/rigorous_coupled_wave_analysis/rcwa.py:rcwa_structure.get_fields", "rayflare/rigorous_coupled_wave_analysis/rcwa.py:rcwa_structure.get_fields_unit_cell"]}
{"id": "C109", "title": "Every entry of the structure becomes a layer", "statement": "Each entry of the structure passed to rcwa_structure becomes one layer of the stack, or the constructor raises an exception.", "quantifier": "every structure", "why_tests_cant": "All entry forms.", "anchors": ["rayflare/rigorous_coupled_wave_analysis/rcwa.py:rcwa_structure.__init__"]}
{"id": "C110", "title": "S4 and Inkstone are given the same structure", "statement": "For the same object initialise_S and initialise_S_inkstone describe the same layers, materials and regions.", "quantifier": "every geometry", "why_tests_cant": "Needs both solvers and all shapes.", "anchors": ["rayflare/rigorous_coupled_wave_analysis/rcwa.py:initialise_S", "rayflare/rigorous_coupled_wave_analysis/rcwa.py:initialise_S_inkstone"]}
{"id": "C111", "title": "set_widths with the wrong number of widths is an error", "statement": "A calculation after set_widths with a number of widths different from the number of layers raises an exception.", "quantifier": "every list of widths", "why_tests_cant": "All lengths.", "anchors": ["rayflare/rigorous_coupled_wave_analysis/rcwa.py:rcwa_structure.set_widths"]}
{"id": "C112", "title": "Absorption profile values belong to the layer that contains the depth", "statement": "Each value of the profile is the negative derivative of the power flux (finite difference, not below zero) in the layer containing that depth, at the position inside it, for the wavelength of its row.", "quantifier": "every stack, list of depths and wavelengths", "why_tests_cant": "All stacks and depths, including interfaces.", "anchors": ["rayflare/rigorous_coupled_wave_analysis/rcwa.py:rcwa_structure.calculate_profile", "rayflare/rigorous_coupled_wave_analysis/rcwa.py:rcwa_position_resolved"]}
{"id": "C113", "title": "Shape materials may be given as lists", "statement": "The list forms of shape materials handled by update_oc can be used in a geometry.", "quantifier": "every geometry", "why_tests_cant": "Input forms.", "anchors": ["rayflare/rigorous_coupled_wave_analysis/rcwa.py:necessary_materials", "rayflare/rigorous_coupled_wave_analysis/rcwa.py:rcwa_structure.update_oc"]}
{"id": "C114", "title": "One object works with both solvers", "statement": "An rcwa_structure can be calculated with either RCWA_method whatever the method at construction.", "quantifier": "every object and option set", "why_tests_cant": "Needs both solvers installed.", "anchors": ["rayflare/rigorous_coupled_wave_analysis/rcwa.py:rcwa_structure.__init__", "rayflare/rigorous_coupled_wave_analysis/rcwa.py:rcwa_structure.calculate"]}
{"id": "C115", "title": "The width attribute is the total width in use", "statement": "rcwa_structure.width is the sum of the current layer widths in m.", "quantifier": "every history of calls", "why_tests_cant": "History property.", "anchors": ["rayflare/rigorous_coupled_wave_analysis/rcwa.py:rcwa_structure.set_widths", "rayflare/rigorous_coupled_wave_analysis/rcwa.py:rcwa_structure.update_oc"]}
{"id": "C116", "title": "edit_geom_list can change the material of a shape", "statement": "After edit_geom_list sets a new material for a shape the structure can be calculated.", "quantifier": "every object, shape and material", "why_tests_cant": "All materials.", "anchors": ["rayflare/rigorous_coupled_wave_analysis/rcwa.py:rcwa_structure.edit_geom_list", "rayflare/rigorous_coupled_wave_analysis/rcwa.py:initialise_S"]}
{"id": "C117", "title": "A well formed structure can be calculated", "statement": "For an object built from layers with shapes of the four types, calculate with a valid polarisation and as many wavelengths as before returns one R, T per wavelength and one absorption per layer and wavelength, after any history of calculations, set_size and set_widths with the right number of widths.", "quantifier": "every structure, history and option set", "why_tests_cant": "All structures and histories.", "anchors": ["rayflare/rigorous_coupled_wave_analysis/rcwa.py:rcwa_structure.calculate", "rayflare/rigorous_coupled_wave_analysis/rcwa.py:initialise_S", "rayflare/rigorous_coupled_wave_analysis/rcwa.py:initialise_S_inkstone"]}
{"id": "C118", "title": "Printing a structure shows its elements", "statement": "str(structure) lists exactly the elements of the structure, in order.", "quantifier": "every structure and every later append or pop", "why_tests_cant": "All lists and edits.", "anchors": ["rayflare/structure.py:Structure"]}
{"id": "C119", "title": "Ray-traced interface profiles are shown at their own depth", "statement": "make_absorption_function shows the samples of a ray-traced interface at the depth and in the layer where they were calculated, and 0 in layers that were not requested.", "quantifier": "every rt_structure, layer widths and list of requested layers", "why_tests_cant": "All widths and layer lists.", "anchors": ["rayflare/utilities.py:make_absorption_function", "rayflare/ray_tracing/rt.py:calculate_interface_profiles"]}
{"id": "C120", "title": "Bulk profiles are shown at their own depth", "statement": "In every bulk layer of an rt_structure make_absorption_function shows the generation of the depth it belongs to.", "quantifier": "every list of bulk widths and depth spacing", "why_tests_cant": "All widths and spacings.", "anchors": ["rayflare/utilities.py:make_absorption_function"]}
{"id": "C121", "title": "Depths of the generation function increase and lie in the structure", "statement": "The depths returned by make_absorption_function are strictly increasing, start at 0 or later and stay below the total thickness.", "quantifier": "every result, structure and option set for which a function is returned", "why_tests_cant": "All inputs.", "anchors": ["rayflare/utilities.py:make_absorption_function"]}
{"id": "C122", "title": "Rear incidence is measured from the rear side", "statement": "In the profile of a ray-traced interface lit from the rear the sample at depth z of a layer of width w is the generation at distance w - z from the rear side.", "quantifier": "every stack, spacing and distribution of local angles", "why_tests_cant": "All widths and spacings.", "anchors": ["rayflare/ray_tracing/rt.py:make_profiles_wl", "rayflare/ray_tracing/rt.py:profile_per_layer"]}
{"id": "C123", "title": "Every local angle contributes to the profile", "statement": "The profile of a ray-traced interface is the sum over all local angles of their share times the generation at that angle, negative values set to 0.", "quantifier": "every stack and distribution of local angles", "why_tests_cant": "All coefficient tables.", "anchors": ["rayflare/ray_tracing/rt.py:make_profiles_wl"]}
{"id": "C124", "title": "Interface profiles of rt_structure integrate to the absorption", "statement": "The depth profile of an interface integrates (trapezoidal rule) to the absorption of the interface and is proportional to the sum of the profiles of the absorbed rays.", "quantifier": "every stack, spacing and list of absorbed rays", "why_tests_cant": "All rays and tables.", "anchors": ["rayflare/ray_tracing/rt.py:calculate_interface_profiles"]}
{"id": "C125", "title": "Profiles have the same number of samples at all wavelengths", "statement": "The profile of an interface has the same number of samples whether or not, and how, rays were absorbed.", "quantifier": "every stack, spacing and lists of absorbed rays", "why_tests_cant": "All ray lists.", "anchors": ["rayflare/ray_tracing/rt.py:parallel_inner", "rayflare/ray_tracing/rt.py:calculate_interface_profiles"]}
{"id": "C126", "title": "Generation function of a tmm_structure", "statement": "For a profile of a tmm_structure make_absorption_function shows every sample at its depth.", "quantifier": "every stack, widths set later, and list of layers", "why_tests_cant": "All stacks and widths.", "anchors": ["rayflare/utilities.py:make_absorption_function", "rayflare/transfer_matrix_method/tmm.py:tmm_structure"]}
{"id": "C127", "title": "Generation function without bulk profile", "statement": "make_absorption_function works for calculate_RAT results when options.bulk_profile is False.", "quantifier": "every structure and result", "why_tests_cant": "All structures.", "anchors": ["rayflare/utilities.py:make_absorption_function", "rayflare/matrix_formalism/multiply_matrices.py:calculate_RAT"]}
{"id": "C128", "title": "Every ray is traced from inside the cell", "statement": "At least n_rays and fewer than n_rays + nx*ny rays are traced; ray k starts at its point of the nx by ny grid and its result is stored once; by default the grid lies strictly inside the unit cell and, unless random, is equally spaced.", "quantifier": "every n_rays, nx, ny, limits and tracing outcome", "why_tests_cant": "All grids and ray numbers.", "anchors": ["rayflare/ray_tracing/rt.py:parallel_inner", "rayflare/ray_tracing/rt.py:rt_structure.calculate"]}
{"id": "C129", "title": "Random ray positions", "statement": "With random_ray_position nx*ny points are chosen at random on the surface.", "quantifier": "every nx, ny and sequence of draws", "why_tests_cant": "All draws.", "anchors": ["rayflare/ray_tracing/rt.py:rt_structure.calculate", "rayflare/ray_tracing/rt.py:RT"]}
{"id": "C130", "title": "Incident rays", "statement": "An incident ray starts above the highest point of the surface, has the requested polar and azimuth angle, and is aimed at (or starts over) its point of the grid.", "quantifier": "every direction within the hemisphere, surface height and point", "why_tests_cant": "All directions and heights.", "anchors": ["rayflare/ray_tracing/rt.py:RT_wl", "rayflare/ray_tracing/rt.py:single_ray_stack", "rayflare/ray_tracing/rt.py:single_ray_interface"]}
{"id": "C131", "title": "Rays started inside a structure", "statement": "A ray with initial_material m and initial_direction starts inside medium m and heads for its surface in that direction.", "quantifier": "every stack, medium, direction", "why_tests_cant": "All stacks and start media.", "anchors": ["rayflare/ray_tracing/rt.py:single_ray_stack"]}
{"id": "C132", "title": "Rays are moved into the unit cell", "statement": "Before a surface check the ray is moved by whole periods so that it crosses the covered height inside the unit cell of the surface.", "quantifier": "every surface cell and ray", "why_tests_cant": "All cells and rays.", "anchors": ["rayflare/ray_tracing/rt.py:single_ray_stack", "rayflare/ray_tracing/rt.py:single_ray_interface"]}
{"id": "C133", "title": "randomize_surface", "statement": "With randomize_surface a ray keeps its direction and is placed, for every surface after the first, on the side it comes from, beyond the surface, so that it crosses the covered height at a uniformly drawn point of the cell; where it was before does not matter. Without it these draws do not matter.", "quantifier": "every surface, ray and draw", "why_tests_cant": "All draws and directions.", "anchors": ["rayflare/ray_tracing/rt.py:single_ray_stack"]}
{"id": "C134", "title": "A structure does not change its textures", "statement": "Building an rt_structure leaves the given textures as they are, even if used several times, and lowers copy i by the total width above it.", "quantifier": "every list of textures and widths, with arrays shared or not", "why_tests_cant": "Aliasing is a property of all call orders.", "anchors": ["rayflare/ray_tracing/rt.py:rt_structure", "rayflare/ray_tracing/rt.py:RTSurface.__deepcopy__", "rayflare/ray_tracing/rt.py:RTSurface.shift"]}
{"id": "C135", "title": "Lookup tables match the interfaces", "statement": "For every interface with layers exactly its table is requested: its layers, and the media above and below it; layer counts, widths and profile layers stay aligned with the interfaces.", "quantifier": "every list of textures with and without layers", "why_tests_cant": "All mixtures of interfaces.", "anchors": ["rayflare/ray_tracing/rt.py:make_lookuptable_rt_structure", "rayflare/ray_tracing/rt.py:rt_structure"]}
{"id": "C136", "title": "Wrong numbers of materials are rejected", "statement": "An rt_structure whose numbers of textures, materials and widths do not fit is rejected.", "quantifier": "every triple of lists", "why_tests_cant": "All list lengths.", "anchors": ["rayflare/ray_tracing/rt.py:rt_structure", "rayflare/ray_tracing/rt.py:make_lookuptable_rt_structure"]}
{"id": "C137", "title": "Interface results belong to their wavelength", "statement": "Row i of A_per_interface[j] and interface_profiles[j] is what tracing wavelength i gave for interface j.", "quantifier": "every number of wavelengths and interfaces", "why_tests_cant": "All shapes.", "anchors": ["rayflare/ray_tracing/rt.py:rt_structure.calculate"]}
{"id": "C138", "title": "only_incidence_angle", "statement": "With only_incidence_angle all rays have the direction (theta_in, phi_in), for all azimuths if phi_in is \"all\", as many as each channel would get.", "quantifier": "every grid, ray number and direction", "why_tests_cant": "All grids and options.", "anchors": ["rayflare/ray_tracing/rt.py:RT"]}
{"id": "C139", "title": "only_incidence_angle fills the column that is used", "statement": "The rays of only_incidence_angle are counted in the column of the matrix that carries the incident power in calculate_RAT.", "quantifier": "every grid and incidence direction", "why_tests_cant": "All grids; failures are on measure-zero but natural angles.", "anchors": ["rayflare/ray_tracing/rt.py:RT", "rayflare/matrix_formalism/multiply_matrices.py:make_v0"]}
{"id": "C140", "title": "Rear incidence mirrors the interface", "statement": "For rear incidence the media and textures are met in reverse order and the lookup table is read from its other side.", "quantifier": "every interface group", "why_tests_cant": "All groups.", "anchors": ["rayflare/ray_tracing/rt.py:RT"]}
{"id": "C141", "title": "The default options fill the matrix", "statement": "With the default options every direction of incidence gets rays, so every column of a ray-traced matrix is calculated.", "quantifier": "every traced outcome of the rays, every content of uninitialised memory", "why_tests_cant": "An unfilled column holds whatever was in memory; a test sees one such content.", "anchors": ["rayflare/options.py:default_options", "rayflare/ray_tracing/rt.py:RT", "rayflare/ray_tracing/rt.py:RT_wl"]}
{"id": "C142", "title": "Interfaces are calculated with their own media", "statement": "Each matrix and lookup table is calculated with the media directly above and below its interface, under its name, and for every side that light can come from.", "quantifier": "every structure, all methods", "why_tests_cant": "All structures of any length.", "anchors": ["rayflare/matrix_formalism/process_structure.py:process_structure"]}
{"id": "C143", "title": "Which structures are accepted", "statement": "process_structure and the loading of its matrices succeed exactly if interfaces and bulk layers alternate, starting and ending with an interface, the media are given and every interface has what its method needs.", "quantifier": "every list of interfaces, bulk layers and other objects", "why_tests_cant": "All structures; an iff over all lists.", "anchors": ["rayflare/matrix_formalism/process_structure.py:process_structure", "rayflare/matrix_formalism/multiply_matrices.py:calculate_RAT"]}
{"id": "C144", "title": "only_incidence_angle applies to the front surface", "statement": "With only_incidence_angle the front surface is calculated for the direction of incidence only, and nothing else is restricted.", "quantifier": "every structure and method", "why_tests_cant": "All structures and methods.", "anchors": ["rayflare/matrix_formalism/process_structure.py:process_structure", "rayflare/matrix_formalism/process_structure.py:determine_only_incidence"]}
{"id": "C145", "title": "Calculations get the layers of their interface", "statement": "Every calculation gets the number, materials, widths in nm, profile layers, coherency list and texture of its own interface.", "quantifier": "every structure of interfaces and bulk layers", "why_tests_cant": "All structures; units of all kinds of layer.", "anchors": ["rayflare/matrix_formalism/process_structure.py:process_structure", "rayflare/structure.py:Interface"]}
{"id": "C146", "title": "Results are saved where get_savepath says", "statement": "get_savepath returns an existing directory, makes at most it and its location, removes nothing, and a second call gives the same without further change.", "quantifier": "every file system, location and project name", "why_tests_cant": "All states of the file system.", "anchors": ["rayflare/utilities.py:get_savepath"]}
{"id": "C147", "title": "Save locations may be nested", "statement": "A save location or project name with several missing levels is created.", "quantifier": "every file system and path", "why_tests_cant": "All paths and file systems.", "anchors": ["rayflare/utilities.py:get_savepath"]}
{"id": "C148", "title": "Several runs may start at once", "statement": "Runs that start at the same time with the same save location all find or create it.", "quantifier": "every number of runs and every interleaving", "why_tests_cant": "Interleavings cannot be enumerated by tests.", "anchors": ["rayflare/utilities.py:get_savepath"]}
{"id": "C149", "title": "Plane slabs follow the slab formula", "statement": "For a bulk layer between plane TMM interfaces (or above a perfect mirror) the reported R, T and bulk absorption are those of the incoherent slab formula R0 + T0 D R1 D Tb / (1 - D R1 D Rb) etc., up to what the light left in the bulk (at most the threshold) would still have contributed; the angle inside is the bin of Snell's angle.", "quantifier": "every grid with an even number of symmetry sectors, every solver, stack, bulk, direction, threshold and number of passes", "why_tests_cant": "Tests compare with tmm at a few angles and tolerances; the identity for all inputs needs the whole chain of matrices.", "anchors": ["rayflare/transfer_matrix_method/tmm.py:make_matrix_wl", "rayflare/matrix_formalism/multiply_matrices.py:calculate_RAT", "rayflare/matrix_formalism/multiply_matrices.py:matrix_multiplication", "rayflare/matrix_formalism/ideal_cases.py:mirror_matrix"]}
{"id": "C150", "title": "Power is conserved from the solver to the result", "statement": "If the coherent or incoherent solver accounts for all light, a structure of plane TMM interfaces around an absorbing bulk (back surface TMM, mirror or Lambertian) gives a run that ends, with fractions between 0 and 1 that add up to one with the light left in the bulk.", "quantifier": "every grid, solver, stack, bulk, direction, polarisation s, p or u", "why_tests_cant": "A test can only sum the fractions of single runs.", "anchors": ["rayflare/transfer_matrix_method/tmm.py:make_matrix_wl", "rayflare/matrix_formalism/multiply_matrices.py:calculate_RAT", "rayflare/matrix_formalism/multiply_matrices.py:matrix_multiplication", "rayflare/matrix_formalism/ideal_cases.py:mirror_matrix"]}
{"id": "C151", "title": "A ray meeting a flat surface obeys Fresnel and Snell", "statement": "A ray fired at a flat surface comes back at the mirrored direction exactly when its random number does not exceed the reflectance (Fresnel or lookup table), otherwise it leaves through the surface at Snell's angle in the plane of incidence or is absorbed in the layers of the surface with the table's shares; it is never lost.", "quantifier": "every flat surface, triangulation, position in or out of the cell, incidence below 90 degrees, azimuth, refractive indices, polarisation, table entry and random number", "why_tests_cant": "A test fires finitely many rays at particular triangulations; rays through edges and at any position are not covered.", "anchors": ["rayflare/ray_tracing/rt.py:RT_wl", "rayflare/ray_tracing/rt.py:single_ray_interface", "rayflare/ray_tracing/rt.py:single_interface_check", "rayflare/textures/standard_rt_textures.py:planar_surface"]}
{"id": "C152", "title": "The ray-traced matrix of a flat surface", "statement": "Ray tracing a flat surface with the default ray directions gives a matrix whose columns hold the share of rays with random number at most R in the specular bin and the share transmitted in the bin of Snell's angle, nothing elsewhere; above the critical angle everything is reflected. With layers, the absorption matrix holds the share of absorbed rays.", "quantifier": "every grid with an even number of symmetry sectors, both sides, every flat surface, indices, polarisation, lookup table, number of rays and random numbers", "why_tests_cant": "Tests compare sums with tolerances; that no ray is put into a wrong bin needs all grids and all draws.", "anchors": ["rayflare/ray_tracing/rt.py:RT_wl", "rayflare/ray_tracing/rt.py:single_ray_interface", "rayflare/ray_tracing/rt.py:single_interface_check", "rayflare/textures/standard_rt_textures.py:planar_surface"]}
{"id": "C153", "title": "Ray tracing and TMM agree on where a flat surface sends light", "statement": "For a flat surface between the same media the column ray tracing gives and the column the transfer matrix method gives have their power in the same two bins.", "quantifier": "every grid with an even number of symmetry sectors, side, media, solver and random numbers, below the critical angle", "why_tests_cant": "The two methods share no code; tests compare totals for a few structures.", "anchors": ["rayflare/ray_tracing/rt.py:RT_wl", "rayflare/ray_tracing/rt.py:single_ray_interface", "rayflare/ray_tracing/rt.py:single_interface_check", "rayflare/textures/standard_rt_textures.py:planar_surface", "rayflare/transfer_matrix_method/tmm.py:make_matrix_wl"]}
{"id": "C154", "title": "A hyperhemisphere is the hull of points on its sphere", "statement": "hyperhemisphere returns surfaces whose points are those of the golden spiral on the sphere that are not below z = 0, with a rim at z = 0; the rear surface is the mirror image; corners, simplices and normals belong together; and the faces are those of the convex hull, less exactly the ones that are nearly level and in the lowest tenth of a radius.", "quantifier": "every number of points, radius, h, convex hull routine and height distribution for which a surface is returned", "why_tests_cant": "A test builds one lens and looks at sizes; orientation and completeness depend on every triangle of a hull that changes with N_points, radius and h.", "anchors": ["rayflare/textures/standard_rt_textures.py:hyperhemisphere"]}
{"id": "C155", "title": "Normals of a hemisphere point upwards", "statement": "For h <= 0 every normal of the front surface and of the rear surface of hyperhemisphere points upwards or is horizontal.", "quantifier": "every number of points, positive radius, h <= 0 and correct convex hull routine", "why_tests_cant": "A test builds one lens and looks at sizes; orientation and completeness depend on every triangle of a hull that changes with N_points, radius and h.", "anchors": ["rayflare/textures/standard_rt_textures.py:hyperhemisphere"]}
{"id": "C156", "title": "Normals of a hyperhemisphere point outwards", "statement": "Every normal of the front surface of hyperhemisphere points out of the sphere, and every normal of the rear surface into it.", "quantifier": "every number of points, radius, h and correct convex hull routine", "why_tests_cant": "A test builds one lens and looks at sizes; orientation and completeness depend on every triangle of a hull that changes with N_points, radius and h.", "anchors": ["rayflare/textures/standard_rt_textures.py:hyperhemisphere"]}
{"id": "C157", "title": "The units of a hyperhemisphere are arbitrary", "statement": "Multiplying radius and h by the same factor multiplies the points of the surface by that factor (\"units are arbitrary but should be kept consistent between surfaces\").", "quantifier": "every number of points, radius, h and factor", "why_tests_cant": "A test uses one radius.", "anchors": ["rayflare/textures/standard_rt_textures.py:hyperhemisphere"]}
{"id": "C158", "title": "A hyperhemisphere is open at the bottom only", "statement": "With h = radius the whole sphere is returned; with negative h, the hemisphere is truncated: every proper face of the hull that is not part of the flat bottom is in the front surface.", "quantifier": "every number of points, radius, h and correct convex hull routine", "why_tests_cant": "A test builds one lens and looks at sizes; orientation and completeness depend on every triangle of a hull that changes with N_points, radius and h.", "anchors": ["rayflare/textures/standard_rt_textures.py:hyperhemisphere"]}
{"id": "C159", "title": "Absorption per order adds up to the absorption of the layer", "statement": "With A_per_order=True, A_layer_order has one table per wavelength with one row per layer and one entry per order; if the solver splits the flux of every layer into orders, the entries of a row add up to A_per_layer (to a negative number exactly where A_per_layer was cut off at 0); an order whose flux is the same in all layers has absorption 0.", "quantifier": "every structure, option set and solver whose fluxes are sums over the orders", "why_tests_cant": "Needs S4, and all fluxes.", "anchors": ["rayflare/rigorous_coupled_wave_analysis/rcwa.py:rcwa_absorption_per_layer_order", "rayflare/rigorous_coupled_wave_analysis/rcwa.py:rcwa_structure.calculate"]}
{"id": "C160", "title": "The basis set belongs to the absorption per order", "statement": "With A_per_order=True, basis_set has as many orders as each row of A_layer_order.", "quantifier": "every structure, option set and solver whose orders depend on lattice, number of orders and S4 options", "why_tests_cant": "Needs S4, with two sets of options.", "anchors": ["rayflare/rigorous_coupled_wave_analysis/rcwa.py:rcwa_absorption_per_layer_order", "rayflare/rigorous_coupled_wave_analysis/rcwa.py:rcwa_structure.calculate"]}
{"id": "C161", "title": "Rays traced through textured stacks conserve energy", "statement": "However a ray moves through a stack of textured surfaces, with or without periodic boundaries and randomised positions, tracing it never fails, it is reported with the angles of its true direction, and R + T + A of any number of such rays is in [1 - I_thresh, 1].", "quantifier": "every structure, surface shape (also re-randomised ones), lookup table with usable entries, start in any medium, random numbers; rays never left exactly horizontal", "why_tests_cant": "Unbounded random paths over arbitrary surfaces.", "anchors": ["rayflare/ray_tracing/rt.py:single_ray_stack", "rayflare/ray_tracing/rt.py:single_interface_check", "rayflare/ray_tracing/rt.py:single_cell_check"]}
{"id": "C162", "title": "A planar stack does not depend on where the ray is", "statement": "In a stack of flat surfaces what happens to a ray is determined by its angle, the films, and one random number per surface: the position, the cell sizes and randomize_surface do not matter; one interaction per surface; the azimuth is kept.", "quantifier": "every planar stack of transparent or absorbing media (around lookup-table films n0 / n1 real; Fresnel films not met exactly at the critical angle, unless they reflect all light there), start medium and direction, position, angle below 90 degrees, random numbers", "why_tests_cant": "Needs all positions and paths of any length.", "anchors": ["rayflare/ray_tracing/rt.py:single_ray_stack", "rayflare/ray_tracing/rt.py:single_interface_check", "rayflare/ray_tracing/rt.py:single_cell_check"]}
{"id": "C163", "title": "Planar stacks obey Snell and Beer-Lambert", "statement": "A ray traced through a planar stack leaves at the Snell angle of the outer medium with power exp(-sum alpha w / cos theta) over the layers crossed, is kept by a film with its shares, or ends below the threshold; each layer has absorbed what the crossings through it took.", "quantifier": "every planar stack of transparent or absorbing media (around lookup-table films n0 / n1 real; Fresnel films not met exactly at the critical angle, unless they reflect all light there), start medium and direction, position, angle below 90 degrees, random numbers", "why_tests_cant": "Paths of any length with all random numbers.", "anchors": ["rayflare/ray_tracing/rt.py:single_ray_stack", "rayflare/ray_tracing/rt.py:single_interface_check", "rayflare/ray_tracing/rt.py:single_cell_check"]}
{"id": "C164", "title": "rt_structure puts flat textures at the depths of the layers", "statement": "The surfaces made by rt_structure from flat textures are flat at the depths given by the widths (in m, converted to um), fill their cells, and stay so when refreshed; planar_surface is such a texture for each way Delaunay may split the square.", "quantifier": "every list of flat textures (also repeated ones) and widths", "why_tests_cant": "All widths, textures and triangulations.", "anchors": ["rayflare/ray_tracing/rt.py:rt_structure.__init__", "rayflare/ray_tracing/rt.py:RTSurface.shift", "rayflare/textures/standard_rt_textures.py:planar_surface"]}
{"id": "C165", "title": "A unit cell set by the user is used", "statement": "After set_size(s) every stack passed to the RCWA solver has the basis vectors s, until set_size is called again, also for other wavelengths.", "quantifier": "every structure, method, options and sequence of calls between", "why_tests_cant": "Any number of later calls with any options.", "anchors": ["rayflare/rigorous_coupled_wave_analysis/rcwa.py:rcwa_structure.set_size", "rayflare/rigorous_coupled_wave_analysis/rcwa.py:rcwa_structure.calculate", "rayflare/rigorous_coupled_wave_analysis/rcwa.py:rcwa_structure.calculate_profile"]}
{"id": "C166", "title": "edit_geom_list changes the shape named and nothing else", "statement": "After edit_geom_list all later calculations use the edited shape, with the permittivity of the material whose name it carries, and leave all other shapes as they were (apart from the polygons of C60).", "quantifier": "every structure, edit, method, options and sequence of calls", "why_tests_cant": "Any number of edits and later calls.", "anchors": ["rayflare/rigorous_coupled_wave_analysis/rcwa.py:rcwa_structure.edit_geom_list", "rayflare/rigorous_coupled_wave_analysis/rcwa.py:rcwa_structure.calculate", "rayflare/rigorous_coupled_wave_analysis/rcwa.py:rcwa_structure.calculate_profile"]}
{"id": "C167", "title": "A shape can be given a new material", "statement": "edit_geom_list can give a shape a material that no shape of the structure had before.", "quantifier": "every structure, edit and options", "why_tests_cant": "Needs all edits.", "anchors": ["rayflare/rigorous_coupled_wave_analysis/rcwa.py:rcwa_structure.edit_geom_list", "rayflare/rigorous_coupled_wave_analysis/rcwa.py:rcwa_structure.calculate"]}
{"id": "C168", "title": "Results returned with a profile belong to the structure as it is", "statement": "R, T and A returned by calculate_profile after set_widths, set_size or edit_geom_list are those of the changed structure.", "quantifier": "every structure, change and options", "why_tests_cant": "Depends on the sequence of calls.", "anchors": ["rayflare/rigorous_coupled_wave_analysis/rcwa.py:rcwa_structure.set_size", "rayflare/rigorous_coupled_wave_analysis/rcwa.py:rcwa_structure.set_widths", "rayflare/rigorous_coupled_wave_analysis/rcwa.py:rcwa_structure.edit_geom_list", "rayflare/rigorous_coupled_wave_analysis/rcwa.py:rcwa_structure.calculate", "rayflare/rigorous_coupled_wave_analysis/rcwa.py:rcwa_structure.calculate_profile"]}
{"id": "C169", "title": "Reflection by absorbing media follows the Fresnel equations of metals", "statement": "A ray going from a transparent into an absorbing medium, up to arcsin(Re n1 / Re n0), is reflected exactly with the textbook reflectance; straight on it is |n0 - n1|^2 / |n0 + n1|^2 between any two media; reflectances are always in [0, 1]; without absorption everything is as with real indices.", "quantifier": "every index n > 0, k >= 0, angle, polarisation, side, random number", "why_tests_cant": "Continuum of complex indices and angles.", "anchors": ["rayflare/ray_tracing/rt.py:calc_R", "rayflare/ray_tracing/rt.py:decide_RT_Fresnel"]}
{"id": "C170", "title": "Absorbing media reflect by Fresnel at every angle", "statement": "The reflectance of an absorbing medium is that of the Fresnel equations at every angle of incidence.", "quantifier": "every index, angle, polarisation", "why_tests_cant": "Continuum of complex indices and angles.", "anchors": ["rayflare/ray_tracing/rt.py:calc_R", "rayflare/ray_tracing/rt.py:decide_RT_Fresnel"]}
{"id": "C171", "title": "Light entering an absorbing medium is refracted by the real parts", "statement": "With the Fresnel option a ray is mirrored, or continues on the other side with the tangential part Re n0 / Re n1 times the old one and unit length, whatever the absorption of both media.", "quantifier": "every index, direction, normal, random number", "why_tests_cant": "Continuum of directions and indices.", "anchors": ["rayflare/ray_tracing/rt.py:decide_RT_Fresnel"]}
{"id": "C172", "title": "Lookup tables send light in the same direction as the Fresnel option", "statement": "Transmitted light has the same direction whether a surface is treated with a lookup table or with the Fresnel option.", "quantifier": "every index, direction, normal, random numbers", "why_tests_cant": "Continuum of directions and indices.", "anchors": ["rayflare/ray_tracing/rt.py:decide_RT_Fresnel", "rayflare/ray_tracing/rt.py:decide_RT_TMM"]}
{"id": "C173", "title": "Ray-traced structures account for all light", "statement": "A structure built from any textures, materials and widths and calculated with any options: when the calculation ends it has not failed, R, T and the absorptions are not negative, and R + T + A adds up to 1 up to the intensity threshold at which rays are given up.", "quantifier": "every list of textures, materials, widths, lookup tables, options, random numbers; every number of rays", "why_tests_cant": "Unit tests check sums for a few structures; this is for every structure and every sequence of random numbers.", "anchors": ["rayflare/ray_tracing/rt.py:rt_structure.__init__", "rayflare/ray_tracing/rt.py:rt_structure.calculate", "rayflare/ray_tracing/rt.py:parallel_inner", "rayflare/ray_tracing/rt.py:single_ray_stack"]}
{"id": "C174", "title": "Planar ray-traced structures follow Fresnel, the lookup tables, Snell and Beer-Lambert", "statement": "For planar textures, bare or with lookup tables, from the options in SI units: each ray crosses the media that the Fresnel reflectances or the tables and its random numbers tell, at the angles of Snell, losing 4 pi k / wavelength times the layer width over the cosine in each; it ends where it leaves, where the layers on a surface absorb it (with shares in proportion to their absorptions in the table), or where its power first is below the threshold; R, T, R0 and the absorption per layer and per surface are the averages over the rays.", "quantifier": "every number of layers, widths, materials, angle, polarisation, threshold, starting medium, random numbers", "why_tests_cant": "The whole chain of set-up, unit conversions, tracing and averaging, for every sequence of random numbers.", "anchors": ["rayflare/ray_tracing/rt.py:rt_structure.__init__", "rayflare/ray_tracing/rt.py:rt_structure.calculate", "rayflare/ray_tracing/rt.py:parallel_inner", "rayflare/ray_tracing/rt.py:single_ray_stack"]}
{"id": "C175", "title": "Ray tracing of planar absorbing layers ends", "statement": "If every layer of a planar structure absorbs, the calculation ends after a number of surfaces per ray bounded by the threshold and the least absorption of one pass.", "quantifier": "every planar structure of absorbing layers, every sequence of random numbers", "why_tests_cant": "Termination for every sequence of random numbers.", "anchors": ["rayflare/ray_tracing/rt.py:rt_structure.calculate", "rayflare/ray_tracing/rt.py:parallel_inner", "rayflare/ray_tracing/rt.py:single_ray_stack"]}
{"id": "C176", "title": "Where rays start does not matter for planar structures", "statement": "R, T, R0 and the absorptions in the layers and at the surfaces of planar structures depend on the refractive indices, widths, lookup tables, angle, polarisation, threshold, starting medium and the random numbers drawn for the surfaces, and not on the unit cells of the textures, the positions of the rays, randomize_surface, the azimuth or how often surfaces are refreshed.", "quantifier": "every pair of planar structures and options that agree in these", "why_tests_cant": "A statement about pairs of runs.", "anchors": ["rayflare/ray_tracing/rt.py:rt_structure.__init__", "rayflare/ray_tracing/rt.py:rt_structure.calculate", "rayflare/ray_tracing/rt.py:parallel_inner", "rayflare/ray_tracing/rt.py:single_ray_stack"]}
{"id": "C177", "title": "The average of planar ray tracing is the balance of power", "statement": "Planar structures of absorbing layers, surfaces bare or with lookup tables: averaged over the random numbers of all rays (each number uniform between 0 and 1), R, T and the absorption in each layer and at each surface are what the balance of power gives: at each surface the Fresnel reflectance of light at its Snell angle, or the reflection in the table, goes back; the rest, or the transmission in the table, goes on; what the table neither reflects nor transmits is absorbed there; and each layer keeps 1 - exp(-4 pi k width / (wavelength cos)) of the light crossing it. The average is never above this and at most the intensity threshold below. These equations have a solution, only one, and it adds up to 1 over R, T, the layers and the surfaces.", "quantifier": "every number of layers, widths, absorbing materials, angle, polarisation, threshold, starting medium, number of rays", "why_tests_cant": "A statement about averages over all random numbers; tests run one seed and compare with a tolerance.", "anchors": ["rayflare/ray_tracing/rt.py:rt_structure.__init__", "rayflare/ray_tracing/rt.py:rt_structure.calculate", "rayflare/ray_tracing/rt.py:parallel_inner", "rayflare/ray_tracing/rt.py:single_ray_stack"]}
{"id": "C178", "title": "The average of a ray-traced slab is the incoherent slab formula", "statement": "For one planar absorbing layer lit from the front, surfaces bare or with lookup tables, the averages of R, T, A and the absorption at the two surfaces over the random numbers are the closed formulas for a slab with all orders of internal reflection (the ones of C149, which the angular matrices give), less at most the threshold.", "quantifier": "every refractive indices, width, angle, polarisation, threshold, number of rays", "why_tests_cant": "A statement about averages over all random numbers; ties ray tracing to the matrix formalism.", "anchors": ["rayflare/ray_tracing/rt.py:rt_structure.__init__", "rayflare/ray_tracing/rt.py:rt_structure.calculate", "rayflare/ray_tracing/rt.py:parallel_inner", "rayflare/ray_tracing/rt.py:single_ray_stack"]}
{"id": "C179", "title": "R0 is on average the reflectance of the first surface", "statement": "The average of R0 over the random numbers is exactly the reflectance of the first surface at the angle of incidence (Fresnel's, or the reflection in its lookup table), whatever the layers below and the threshold.", "quantifier": "every planar structure of absorbing layers, angle, polarisation, threshold, number of rays, light from the front", "why_tests_cant": "A statement about averages over all random numbers.", "anchors": ["rayflare/ray_tracing/rt.py:rt_structure.__init__", "rayflare/ray_tracing/rt.py:rt_structure.calculate", "rayflare/ray_tracing/rt.py:parallel_inner", "rayflare/ray_tracing/rt.py:single_ray_stack"]}
{"id": "C180", "title": "Ray-traced results converge with the number of rays", "statement": "For any structure (textures, lookup tables, layers) and options for which the tracing ends: R, T, R0 and the absorption in each layer and at each surface have an average over the random numbers that decide between reflection, transmission and absorption, and the chance of a result off this average by eps or more is at most 1 / (4 n_rays eps^2).", "quantifier": "every structure without random heights (randomize_surface redraws them as the rays go), options and positions of the rays; every eps > 0", "why_tests_cant": "A statement about the distribution of results over all random numbers; tests compare a few seeds with tolerances chosen by hand.", "anchors": ["rayflare/ray_tracing/rt.py:rt_structure.__init__", "rayflare/ray_tracing/rt.py:rt_structure.calculate", "rayflare/ray_tracing/rt.py:parallel_inner", "rayflare/ray_tracing/rt.py:single_ray_stack", "rayflare/ray_tracing/rt.py:single_interface_check", "rayflare/ray_tracing/rt.py:single_cell_check", "rayflare/ray_tracing/rt.py:decide_RT_Fresnel", "rayflare/ray_tracing/rt.py:decide_RT_TMM"]}
{"id": "C181", "title": "Planar ray tracing is rarely far from the exact result", "statement": "For planar structures of absorbing layers, surfaces bare or with lookup tables, R, T and the absorption in each layer and at each surface are off the exact balance of power (C177) by more than the threshold plus eps with a chance of at most 1 / (4 n_rays eps^2).", "quantifier": "every number of layers, widths, absorbing materials, angle, polarisation, threshold, starting medium, number of rays and eps > 0", "why_tests_cant": "As C180.", "anchors": ["rayflare/ray_tracing/rt.py:rt_structure.__init__", "rayflare/ray_tracing/rt.py:rt_structure.calculate", "rayflare/ray_tracing/rt.py:parallel_inner", "rayflare/ray_tracing/rt.py:single_ray_stack"]}
{"id": "C182", "title": "RT accounts for every ray of every column", "statement": "For any pair of surfaces, media, lookup table and options, whenever all rays have been followed to their end RT raises no exception; its matrices have a row for each angular bin and a column for each bin on the side of incidence; and in each column light was sent from the entries lie between 0 and 1 and add up, with the absorption in the surface layers, to 1. This includes rays that leave exactly vertically or at an azimuth at the edge of a bin.", "quantifier": "every texture, pair of materials (complex indices), lookup table, polarisation, angular grid, symmetry, side of incidence, choice of directions (default, random or the angle of incidence) and of positions, number of rays and all random numbers", "why_tests_cant": "a test looks at one texture with one seed; exactly vertical rays and edge azimuths do not turn up at random", "anchors": ["rayflare/ray_tracing/rt.py:RT", "rayflare/ray_tracing/rt.py:RT_wl", "rayflare/ray_tracing/rt.py:single_ray_interface", "rayflare/ray_tracing/rt.py:single_interface_check"]}
{"id": "C183", "title": "The matrices of RT converge with the number of rays", "statement": "For any texture without random heights, media, lookup table and options for which the tracing ends: each entry of the redistribution matrix and the absorption in the surface layers of each column have an average over the random numbers that decide between reflection, transmission and absorption, and the chance of a value off this average by eps or more is at most 1 / (4 n eps^2), where n is the number of rays sent in directions of that column. With the default directions and q rays for each column and position, n is q * nx * ny in every column.", "quantifier": "every texture, pair of materials, lookup table, grid, symmetry, side, choice of directions and positions; every column, bin and eps > 0", "why_tests_cant": "A statement about the distribution of matrices over all random numbers; tests compare a few seeds.", "anchors": ["rayflare/ray_tracing/rt.py:RT", "rayflare/ray_tracing/rt.py:RT_wl", "rayflare/ray_tracing/rt.py:single_ray_interface", "rayflare/ray_tracing/rt.py:single_interface_check", "rayflare/ray_tracing/rt.py:decide_RT_Fresnel", "rayflare/ray_tracing/rt.py:decide_RT_TMM"]}
{"id": "C184", "title": "The matrices of RT of a flat surface average to Fresnel and Snell", "statement": "For a flat surface between any two media, bare or with a lookup table, and a symmetry of even order: the average over the random numbers of a column of RT is the reflectance in the bin of the incident direction, the transmittance in the bin of Snell's angle, the rest in the surface layers and 0 in all other bins, for the default directions and for the angle of incidence alone; values are off by eps or more with a chance of at most 1 / (4 n eps^2).", "quantifier": "every pair of media (complex indices), lookup table of probabilities, polarisation, grid, even symmetry, side, number of rays and eps > 0", "why_tests_cant": "Tests compare one or two seeds with TMM within tolerances of several per cent; a bias below that, or into a neighbouring bin, passes.", "anchors": ["rayflare/ray_tracing/rt.py:RT", "rayflare/ray_tracing/rt.py:RT_wl", "rayflare/ray_tracing/rt.py:single_ray_interface", "rayflare/ray_tracing/rt.py:single_interface_check", "rayflare/ray_tracing/rt.py:decide_RT_Fresnel", "rayflare/ray_tracing/rt.py:decide_RT_TMM"]}
{"id": "C185", "title": "Ray-traced surfaces around a bulk layer account for all light", "statement": "Whatever the textures, media, lookup tables and random numbers: once the rays have been followed to their end, the matrices RT stores for the surfaces, multiplied by calculate_RAT with an absorbing bulk between them, give a run that ends; R, T and all absorptions are nonnegative and add up to one with what is left in the bulk, which is at most the threshold. The back surface may also be plane, a mirror or Lambertian, or the front plane and the back textured.", "quantifier": "every pair of textures, materials, lookup tables, options, random numbers, wavelengths, bulk absorption and threshold", "why_tests_cant": "Tests check the sum for a few structures and seeds within tolerances.", "anchors": ["rayflare/ray_tracing/rt.py:RT", "rayflare/ray_tracing/rt.py:RT_wl", "rayflare/matrix_formalism/multiply_matrices.py:calculate_RAT", "rayflare/matrix_formalism/multiply_matrices.py:matrix_multiplication"]}
{"id": "C186", "title": "A more strongly absorbing bulk never gives more reflection or transmission", "statement": "For surfaces that do not amplify light: replacing the bulk by one that is optically at least as thick at every wavelength never makes calculate_RAT take more passes, and never increases the reported reflection, transmission or absorption in either surface. If the surfaces lose no light, the reported bulk absorption falls by at most the threshold I_thresh.", "quantifier": "every pair of passive surfaces, direction of incidence, absorption spectra, thicknesses, threshold and number of passes", "why_tests_cant": "Tests compare a few thicknesses of one structure; the pass at which the loop stops differs between the runs.", "anchors": ["rayflare/matrix_formalism/multiply_matrices.py:calculate_RAT", "rayflare/matrix_formalism/multiply_matrices.py:matrix_multiplication", "rayflare/matrix_formalism/multiply_matrices.py:make_D"]}
{"id": "C187", "title": "Better light trapping never reduces the bulk absorption", "statement": "With the same bulk: if the front surface lets at least as much light in, its rear side reflects at least as much and the back surface reflects at least as much, channel by channel, then the reported bulk absorption is at least as large at every wavelength. With an unchanged front surface, reflection and front-surface absorption are at least as large too; with an unchanged back surface, transmission and back-surface absorption are.", "quantifier": "every two triples of passive surface matrices compared entry by entry, every bulk, direction, threshold and number of passes", "why_tests_cant": "Needs a comparison of two runs that stop after different numbers of passes, for all matrices.", "anchors": ["rayflare/matrix_formalism/multiply_matrices.py:calculate_RAT", "rayflare/matrix_formalism/multiply_matrices.py:matrix_multiplication", "rayflare/matrix_formalism/multiply_matrices.py:make_D"]}
{"id": "C188", "title": "Several bulk layers share the incident light", "statement": "For a structure with several bulk layers, the reflection, transmission and absorption that calculate_RAT reports for all layers together never exceed the incident power.", "quantifier": "every number of bulk layers, absorption spectra, thicknesses, interface matrices, direction, threshold and number of passes", "why_tests_cant": "All tests have one bulk layer; the documentation says only one is supported, but structures with more are accepted without a warning.", "anchors": ["rayflare/matrix_formalism/multiply_matrices.py:calculate_RAT", "rayflare/matrix_formalism/multiply_matrices.py:matrix_multiplication"]}
{"id": "C189", "title": "Every bulk layer's absorption is reported", "statement": "The result of calculate_RAT has a reflection, transmission and bulk absorption row for every bulk layer, whichever layers the light reaches.", "quantifier": "every number of bulk layers and interface matrices, including interfaces that let no light through", "why_tests_cant": "Depends on which bulk layers receive light at all, and on the last one deciding for all of them.", "anchors": ["rayflare/matrix_formalism/multiply_matrices.py:calculate_RAT", "rayflare/matrix_formalism/multiply_matrices.py:matrix_multiplication"]}
{"id": "C190", "title": "A gentle texture is met once", "statement": "If the facets of a texture are tilted by at most s and a ray comes from theta off the vertical with theta + 3 s below 90 degrees, the ray interacts with exactly one facet: it is reported as reflected, transmitted or absorbed as drawn there, with that local angle, and its direction obeys the law of reflection or Snell and stays within theta + 2 s of the vertical (for transmission into a lower index: if the angle of refraction y at the facets has y + 2 s below 90 degrees, within y + s). Holds when the intersection tolerance at facet edges is small against the step of 1e-9 by which a ray is moved on.", "quantifier": "every triangulated surface close to the graph of a function with slopes up to tan s, periodic in the unit cell, every ray, both sides, every random number, every index pair and lookup table", "why_tests_cant": "Geometric statement about all surfaces and rays; spurious second hits of the same or a neighbouring facet happen only at rare positions.", "anchors": ["rayflare/ray_tracing/rt.py:single_interface_check", "rayflare/ray_tracing/rt.py:check_intersect", "rayflare/ray_tracing/rt.py:decide_RT_Fresnel", "rayflare/ray_tracing/rt.py:decide_RT_TMM"]}
{"id": "C191", "title": "Pyramids below 30 degrees act as tilted planes", "statement": "Light falling straight onto regular pyramids with an angle below 30 degrees meets the facets at exactly that angle, is reflected once and leaves at twice the angle, or is refracted once by Snell at the facet.", "quantifier": "every angle in (0, 30), size up to the bound set by the tolerance, upright or inverted, front or rear surface, every position in the cell, both sides, every random number", "why_tests_cant": "Tests trace a few hundred random rays on one 55 degree texture and compare totals.", "anchors": ["rayflare/ray_tracing/rt.py:single_interface_check", "rayflare/ray_tracing/rt.py:check_intersect", "rayflare/ray_tracing/rt.py:decide_RT_Fresnel", "rayflare/ray_tracing/rt.py:decide_RT_TMM", "rayflare/textures/standard_rt_textures.py:regular_pyramids"]}
{"id": "C192", "title": "The unit of length does not matter", "statement": "Scaling a texture and the ray together by the same factor (choosing another unit of length) does not change what happens to the ray.", "quantifier": "every texture size, ray and random numbers", "why_tests_cant": "The absolute lengths 1e-9 and 1e-10 in the code matter only for rays very near an edge.", "anchors": ["rayflare/ray_tracing/rt.py:single_interface_check", "rayflare/ray_tracing/rt.py:check_intersect", "rayflare/ray_tracing/rt.py:decide_RT_Fresnel", "rayflare/ray_tracing/rt.py:decide_RT_TMM"]}
{"id": "C193", "title": "A ray reported as leaving has nothing ahead of it", "statement": "When single_interface_check reports a ray as reflected or transmitted, its path from the returned position along the returned direction meets no part of the periodically repeated surface.", "quantifier": "every texture, ray and random numbers", "why_tests_cant": "Rays that skim over the neighbouring cell and would hit a pyramid further away are rare and only change totals slightly.", "anchors": ["rayflare/ray_tracing/rt.py:single_interface_check", "rayflare/ray_tracing/rt.py:check_intersect", "rayflare/ray_tracing/rt.py:exit_side"]}
{"id": "C194", "title": "Steep upright pyramids give reflected light a second chance", "statement": "Light falling straight down on upright regular pyramids steeper than 45 degrees, away from their edges, that is reflected by the first facet meets the facing facet of the neighbouring pyramid before it can be reported as leaving. It meets that facet at a local angle of 180 degrees minus three times the facet angle.", "quantifier": "every facet angle between 45 and 90 degrees, every pyramid size, every point of entry clear of the edges, all refractive indices, polarisations, lookup tables and random numbers", "why_tests_cant": "This double bounce is why pyramids are used; a test runs a few rays and sees averages, and does not see where each bounce happened.", "anchors": ["rayflare/ray_tracing/rt.py:single_interface_check", "rayflare/ray_tracing/rt.py:check_intersect", "rayflare/ray_tracing/rt.py:exit_side", "rayflare/textures/standard_rt_textures.py:regular_pyramids"]}
{"id": "C195", "title": "A ray reported as transmitted has crossed the surface", "statement": "single_interface_check reports a ray as transmitted exactly when it ends on the other side of the surface, and as reflected when it ends on the side it came from.", "quantifier": "every texture, ray and random numbers", "why_tests_cant": "The outcome is worked out from the sign of the direction, not from the side the code keeps track of. The two disagree only for rays that pass within a nanometre-sized step of an edge.", "anchors": ["rayflare/ray_tracing/rt.py:single_interface_check", "rayflare/ray_tracing/rt.py:check_intersect", "rayflare/ray_tracing/rt.py:exit_side"]}
{"id": "C196", "title": "Steep inverted pyramids give reflected light a second chance", "statement": "Light falling straight down into inverted regular pyramids steeper than 45 degrees, off the diagonals of the cell, that is reflected by the first facet meets a second facet before it can be reported as leaving.", "quantifier": "every facet angle between 45 and 90 degrees, every pyramid size, every point of entry off the diagonals, real or complex refractive indices, polarisations, lookup tables and random numbers", "why_tests_cant": "The second facet can be the opposite one or either neighbour, depending on where the ray falls; tests see averages over many rays only.", "anchors": ["rayflare/ray_tracing/rt.py:single_interface_check", "rayflare/ray_tracing/rt.py:check_intersect", "rayflare/textures/standard_rt_textures.py:regular_pyramids"]}
{"id": "C197", "title": "Without periodic boundaries light still obeys Snell at every surface", "statement": "With periodic = 0 a ray that is reported in the next medium has met the surface between them: it was refracted there, and beyond the critical angle it is sent back.", "quantifier": "every structure, cell size, position, direction, medium and random number", "why_tests_cant": "Tests of non-periodic structures use lenses and look at totals; a ray that has walked past the edge of the cell is not told apart from a transmitted one.", "anchors": ["rayflare/ray_tracing/rt.py:single_cell_check", "rayflare/ray_tracing/rt.py:single_ray_stack", "rayflare/ray_tracing/rt.py:check_intersect"]}
{"id": "C198", "title": "Rays come down where the grid of positions puts them", "statement": "The ray traced for a point (x, y) of the grid comes down onto the structure at (x, y), whatever the angle of incidence.", "quantifier": "every point, angle of incidence, azimuth, height of the surface and structure", "why_tests_cant": "Tests use periodic boundaries, where a shift of the whole grid cannot be seen, or light at normal incidence, where there is none.", "anchors": ["rayflare/ray_tracing/rt.py:single_ray_stack", "rayflare/ray_tracing/rt.py:rt_structure.calculate"]}
{"id": "C199", "title": "Light reflected by a texture that is not repeated is reported as reflected", "statement": "With periodic = 0, light that falls straight down onto a pyramid, is reflected by it and never enters it is reported as reflected and stays in the medium it came from.", "quantifier": "every facet angle, pyramid size, point of entry off the edges, refractive indices, polarisation, lookup table and random number that reflects", "why_tests_cant": "Tests without periodic boundaries use lenses and total powers; steep facets send the reflected light downwards, where it is not told apart from transmitted light.", "anchors": ["rayflare/ray_tracing/rt.py:single_cell_check", "rayflare/ray_tracing/rt.py:single_ray_stack", "rayflare/textures/standard_rt_textures.py:regular_pyramids"]}
{"id": "C200", "title": "Ray positions represent the cell evenly", "statement": "RT and rt_structure.calculate trace rays from the points asked for with nx, ny, x_limits, y_limits and random_ray_position; by default every point of the grid stands for an equal share of the repeated cell.", "quantifier": "every surface, structure, direction, option and random number for which the tracing ends", "why_tests_cant": "The weight of the border of the cell shows in the averages only; tests compare totals with a tolerance that covers it.", "anchors": ["rayflare/ray_tracing/rt.py:RT", "rayflare/ray_tracing/rt.py:rt_structure.calculate", "rayflare/ray_tracing/rt.py:parallel_inner"]}
{"id": "C201", "title": "Results do not depend on which cell of the texture is illuminated", "statement": "With periodic boundaries, rays from an area moved by whole cells (x_limits, y_limits) give the same results of calculate and the same redistribution matrices, and a ray anywhere on its way may be moved by whole cells of the surface ahead of it.", "quantifier": "every structure, options, random numbers, area and number of cells", "why_tests_cant": "Tests use one area; the results are the same sums of random numbers only if every quantity of every ray is the same.", "anchors": ["rayflare/ray_tracing/rt.py:rt_structure.calculate", "rayflare/ray_tracing/rt.py:single_ray_stack", "rayflare/ray_tracing/rt.py:single_ray_interface"]}
