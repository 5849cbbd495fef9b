# Design of the formal model of RayFlare

Source: `/repo` (qpv-research-group/rayflare), read as text; nothing is executed.
Prover: Rocq/Coq 8.16.1, standard library only.

## Approach

* One model file per area of the code (`Model_*.v`, definitions only), each definition citing the
  file and lines it mirrors and the simplification made, if any.
* `Spec_*.v`: small independent vocabulary used to state properties (readable without the model).
* `Proof_*.v`: lemmas. `Prop_*.v`: the theorems named in `MANIFEST.json`, each `exact`-ing a lemma,
  each with an `Example` that meets its hypotheses and a `Print Assumptions`.
* Numbers. numpy/python floats are modelled by exact real numbers (`R` of the standard library).
  Rounding, overflow and signed zero are not modelled. NaN is modelled explicitly (option type)
  where the code branches on it. Indices are `Z`/`nat` with Python's negative-index wrap-around and
  IndexError modelled explicitly.
* Exceptions are values (`res A := Ok a | Err e`).
* Loops that need not terminate are modelled by a step function plus a relation / a fuelled
  run that returns "out of fuel" as a separate outcome; theorems are about runs that finish, plus
  separate termination theorems.
* External solvers (S4, Inkstone, solcore's tmm), material data, random draws and uninitialised
  memory (`numpy.empty`, `numpy.divide(..., where=)` without `out`) are arguments that the theorems
  quantify over.
* A claim that is false of the faithful model is proved false with a witness (`..._refuted`), and the
  largest true part is proved beside it.

## Trusted base

* Coq's kernel.
* The axioms that `Print Assumptions` lists, all of the standard library: those of its real numbers
  (`ClassicalDedekindReals.sig_forall_dec`, `ClassicalDedekindReals.sig_not_dec`,
  `FunctionalExtensionality.functional_extensionality_dep`) and, where a lemma of the standard library uses
  it, `Classical_Prop.classic`. The list per theorem is in "Assumptions per theorem".
* The correspondence between the Python source and the model files, which was established by reading.

## Plan per property

| id | modelled | how proved |
|----|----------|-----------|
| C01 | make_angle_vector on reals (arcsin / linear edges, ceil counts) | symmetry of edges and counts, induction on rings |
| C02 | fold_phi with floor division / modulo on reals | floor arithmetic |
| C03 | digitize(right=True), overall_bin incl. argmin and negative index | sortedness of edges; refutation at phi = 0 |
| C04 | lambertian_matrix | sums over lists |
| C05 | mirror_matrix incl. index wrap | C02+C03; refutation for 2 pi |
| C06 | same | refutation with a concrete grid |
| C07 | make_v0, azimuth folding in calculate_RAT | digitize lemma; refutation at phi_in = phi_sym |
| C08 | out_to_in_matrix | even m: permutation; m = 3: refutation |
| C09-C13, C16 | matrix_multiplication: both loops, result assembly | loop invariants over lists of reals |
| C14 | make_D | exp lemmas |
| C15 | bulk_profile_calc, trapz | algebra |
| C17 | load_redistribution_matrices | list slicing |
| C18-C20, C22 | file system as finite map, save/crash/load machine | invariants over histories, refutations |
| C21 | process_structure's file set | induction on structure, refutation |
| C23 | get_wavelength on dictionaries | case analysis |
| C24-C26 | RT_wl counting, garbage argument for np.divide | counting lemmas, refutation |
| C27-C31, C69 | single_ray_stack / single_ray_interface / traverse / parallel_inner / calculate | invariant of the ray state machine for every oracle |
| C32 | traverse | exp/trapz |
| C33-C36 | decide_RT_*, calc_R | vector algebra, trigonometry |
| C37 | check_intersect (Moeller-Trumbore) | vector algebra |
| C38, C39 | exit_side, single_interface_check | case analysis, state machine |
| C40, C41 | RTSurface shift/refresh/find_area | refutations + true part |
| C42-C45, C84-C89 | RTSurface, textures | geometry, invariants over histories |
| C46-C50, C65, C90-C92, C94-C96 | TMM, tmm_structure | solver as argument |
| C51, C68, C93 | lookup_table, lookup naming | list reversal, strings |
| C52-C54, C97-C99 | diffraction.py | algebra, permutation lemmas |
| C55-C58, C65, C100-C102 | rcwa.py: matrices | write/loop invariants over the columns, telescoping sums |
| C59-C63, C103-C117 | rcwa.py: structure object | string/list/state machine models |
| C64, C119-C121, C126, C127 | make_absorption_function | lists of nodes, masks as filters |
| C122-C125 | rt.py: depth profiles of interfaces | sums, lists by layer |
| C128-C133 | rt.py: rays started, positions, directions | lists, vectors; draws are arguments |
| C134-C137 | rt.py: rt_structure, its tables and results | a store of objects and arrays for aliasing |
| C138-C140 | rt.py: RT, directions and media | as C01-C07, C24 |
| C141 | options.py with rt.py: default population | as C01-C07, C24 |
| C142-C145 | process_structure.py: calls made for a structure | lists of calls |
| C146-C148 | utilities.py: get_savepath | a file system as a map; interleavings of its operations |
| C149, C150 | tmm.py, ideal_cases.py and multiply_matrices.py together: plane structures | as C01-C07, C46 |
| C151-C153 | rt.py from ray launch to matrix, for flat surfaces | first triangle met = height equation; default directions are the bin centres; counting by draws |
| C154-C158 | hyperhemisphere | spiral points on the sphere; triangles kept up to switching corners; decimal bounds of the first azimuths for the ends of the spiral |
| C159-C160 | rcwa.py: absorption per order | the rows of the stored dictionary traced back to the solver calls |
| C161-C164 | rt.py: single_ray_stack with positions and directions | the run gives a path as in C27; in a planar stack an invariant ties position, direction and medium to the random numbers |
| C165-C168 | rcwa.py: rcwa_structure.set_size, edit_geom_list | solvers that agree on stacks with the property give the same result, after any sequence of calls |
| C169-C172 | rt.py: calc_R, decide_RT_Fresnel, decide_RT_TMM with complex indices | Fresnel's equations for metals written in real arithmetic; Snell's law of the real parts |
| C173-C176 | rt.py: rt_structure.__init__ and calculate, all of it for one wavelength | light in planar structures, bare or with lookup tables, told from materials and widths in SI units; energy balance |
| C177-C179 | the same, averaged over the random numbers | iterated Riemann integrals over the numbers drawn; equations for the balance of power at surfaces and in layers |
| C180-C181 | the same, for any structure | the path of a ray is a decision tree of its numbers; variance of independent rays; Chebyshev |
| C182 | rt.py: RT and RT_wl from options, materials and surfaces to matrices | the exit of each ray (C69) and the counting (C24), extended to vertical rays and bin edges |
| C183-C184 | the same, as functions of the random numbers | a ray through one surface is a decision tree of its own numbers (as C180); columns are averages over independent rays; on flat surfaces the tree has one node |
| C185 | `rt_stored` for each surface and side, read by `calculate_RAT` | columns of C182 with nonnegative layers; then C09, C10, C12 |
| C186-C187 | two runs of `calculate_RAT` on the same grid | the vectors of one run stay entrywise below those of the other, so it stops no later; sums then compare term by term |
| C188-C189 | `calculate_RAT` with a list of bulk layers | each layer's loop is the one-layer run with its own two interfaces and the full incident light; the rows are put together afterwards |
| C190-C192 | surfaces near the graph of a function with bounded slope; spherical triangle inequality; the pyramids are such a surface | a ray leaving a facet cannot meet the graph again; the step 1e-9 beats the tolerance of the intersection test unless the texture is large in the unit of length |
| C193 | the ray after one interaction stays off the graph in all cells; four explicit faces, a ray in rational coordinates | each intersection with a given triangle is a linear problem |
| C194, C195 | the four facets as one facet turned by the cell's symmetry; barycentric coordinates of the second hit as linear functions of the first; one ray in rational coordinates | steep_two gives the second hit once for all decisions |
| C196 | the reflected ray sinks below the rim; it lands on the opposite facet or, if that comes first, on a neighbouring one | three cases by which plane is met first |
| C197 | facets within a box, rays outside the box between its heights: no hit; the position is kept, so the whole run follows by induction | flat cells as in C162; a trace through a thick pane |
| C198 | the exact start of a ray, as in C130, followed down to height 0 | the sideways shift is not 0 for any oblique direction |
| C199 | the facet under the ray as in C194; a reflected ray keeps above the plane of its facet, so it meets no other | sign of cos 2a decides what is reported |
| C200 | ray k of calculate and ray c of each beam of RT read back from the results; distances of the grid compared with the one across the border of the cell | 98 % / (n - 1) = 2 % for n = 50 only |
| C201 | floor division by the cell size commutes with whole cells, so the first check gets the same ray | equality of all results, positions included |
| C66 | theta_summary | sums |
| C67, C118 | structure.py | strings, lists |

## What is modelled, and how it is simplified

| area (model file) | code | simplifications |
|---|---|---|
| angles (`Model_Angles`) | angles.py: make_angle_vector, fold_phi, overall_bin, theta_summary, A_theta_summary (and the theta lookup by argmin used by the callers) | exact reals; np.mean * len is a sum; xarray coordinates reduced to the columns that are read |
| ideal interfaces (`Model_Ideal`) | ideal_cases.py: lambertian_matrix, mirror_matrix | exact reals; file handling is in `Model_Cache`; sparse storage not modelled |
| matrix method (`Model_MatMul`) | multiply_matrices.py: calculate_RAT, matrix_multiplication (both loops), make_v0, out_to_in_matrix, make_D, dot_wl, bulk_profile_calc, the scaling of interface profiles; the loop for one bulk layer is unrolled with fuel | `np.divide(where=)` garbage is an argument; NaN explicit |
| several bulk layers (`Model_Bulks`) | multiply_matrices.py: calculate_RAT, matrix_multiplication with any number of bulk layers: the setup per layer, the loop over layers, the stacking of results and the test for empty results | as `Model_MatMul`; the contents of the profile arrays are not followed, only whether they are there |
| files (`Model_Cache`) | get_matrices_or_paths, process_structure, the save order of every writer, load_redistribution_matrices, get_wavelength, lookup table names | file contents reduced to their provenance; a kill can strike between writes; `os.path.join` injective |
| optics (`Model_Optics`) | calc_R, decide_RT_Fresnel, decide_RT_TMM, check_intersect, exit_side | random draws are arguments; complex refractive indices in `Model_OpticsC`, which agrees with this model for real ones (C169) |
| one interface (`Model_RayIface`) | single_interface_check | NaN positions are None; azimuth added in `Model_Trace`; draws and refreshed surfaces are arguments |
| layered stack (`Model_RayStack`) | single_ray_stack, traverse, parallel_inner, calculate | outcomes of the interfaces are arguments (supplied by `Model_StackRay`); horizontal rays excluded; azimuth and local angle are in `Model_StackRay` |
| calculate (`Model_StackCalc`) | rt_structure.calculate for one wavelength: options, nks, alphas, widths in um, z_pos, positions of the rays, parallel_inner, totals | interface absorption profiles (Model_Process) and the loop over wavelengths are apart; random draws are arguments; number of loop passes as fuel |
| RT (`Model_RTCalc`) | RT and RT_wl for one wavelength and one texture: options, angular grid, directions, media, table side, positions, all rays, matrices | group.materials is None; storage (Model_Cache), profiles and the loop over wavelengths are apart; random draws are arguments; number of loop passes as fuel |
| RT over wavelengths (`Model_RTSlab`) | one set of directions and positions, RT_wl for each wavelength, stacked | the order in which parallel jobs draw their numbers (any numbers are allowed) |
| rays through a stack (`Model_StackRay`) | rt.py:1545-1776 with the checks of `Model_RayIface` | positions, directions, azimuth, local angle, randomize_surface and non-periodic cells included; draws are arguments; the surface object of the k-th check after j refreshes is an argument; complex refractive indices |
| ray-tracing matrices (`Model_RT`) | RT_wl | traced rays are arguments; garbage is finite or NaN; make_profiles_wl is in `Model_RTProfile`; the conversion to sparse matrices not modelled |
| surfaces (`Model_Surface`) | RTSurface.__init__, shift, refresh, find_area; define_textures.py; standard_rt_textures.py except hyperhemisphere (see `Model_Hyper`) | Delaunay triangulation and random draws are arguments; names, interface layers and `__deepcopy__` not modelled; sharing of the Points array not modelled; a degenerate triangle has normal 0 instead of NaN |
| transfer matrix (`Model_TMM`) | tmm.py: TMM for one wavelength and incidence bin, tmm_structure (calculate, set_widths, build_coh_list); lookup_table.py: make_TMM_lookuptable | one wavelength; the solver (solcore, not in the sandbox) is an argument: any function of polarisation, stack, coherency list and angle. Assumed of solcore from its documentation: absorp_in_each_layer lists R or the incidence medium first and the transmission medium last, analytic functions are added and scaled coefficient-wise keeping the decay constants of the first, OptiStack.set_widths replaces the widths. Uninitialised memory is an argument; parallel execution and file output not modelled |
| diffraction orders (`Model_Diff`) | analytic/diffraction.py: get_order_directions (one wavelength), group_diffraction_orders with per_order | real refractive indices; the reciprocal lattice of S4 is an argument; np.round to 10 decimals as exact rounding to the nearest multiple, ties to even; a zero denominator in arctan(x/y) counts as +0 |
| RCWA matrices (`Model_RCWA`) | rigorous_coupled_wave_analysis/rcwa.py: process_pol, rcwa_rt, rcwa_rt_pfbo, rcwa_absorption_per_layer(_order), the loop of RCWA_wl / RCWA_wl_inkstone over directions, layer and geometry order and depth points of RCWA, the stored profile | S4 and Inkstone are an argument (power fluxes, or R/T/A and powers per order); real refractive indices of the outer media; degrees and radians exact; layer_details, saving and the parallel loop over wavelengths not modelled The step from the fluxes to the powers per order (`rcwa_rt_pfbo`, `rcwa_outputs`) is written down but used in no theorem: C56 takes these powers as arguments. |
| RCWA object (`Model_RCWAObj`) | rcwa.py: initialise_S, initialise_S_inkstone, necessary_materials, rcwa_position_resolved, class rcwa_structure (constructor, update_oc, make_S, calculate, calculate_profile, set_widths, set_size, edit_geom_list, the places and wavelength index the field methods use), RCWA_structure_wl(_prof)(_inkstone) | S4 and Inkstone are a function of all they were told and of the excitation; names layer_k and shape_mat_k are numbers; vertex lists and result dictionaries live in a heap; parallel=False; object state after an exception, plotting, saving, rounding to float32 in set_widths and the values returned by the field methods not modelled |
| generation function (`Model_Absorb`) | utilities.py: make_absorption_function (matrix method, rt_structure, tmm_structure / rcwa_structure); the stacking of profiles in multiply_matrices.py: calculate_RAT | solcore's interp1d is its list of nodes and the check of lengths; values between nodes not modelled. The matrix branch reads the first three elements only: the documentation allows one bulk layer. A bulk profile assignment that runs out of data is an exception |
| ray-traced profiles (`Model_RTProfile`) | rt.py: make_profiles_wl, profile_per_layer, calculate_interface_profiles, the depth points in parallel_inner | one wavelength and one incidence channel; the lookup table at the angle is an argument; xarray alignment of the layers as concatenation; prof_layers without duplicates |
| set-up of ray tracing (`Model_RTStruct`) | rt.py: positions and start of rays, rt_structure.__init__, RTSurface.__deepcopy__ and shift on objects, make_lookuptable_rt_structure, assembly of interface results, only_incidence_angle, media and surfaces of RT | draws are arguments; attributes other than Points are values; the start vector is not 0; n, k arrays, joblib and the xarray dataset are not modelled |
| processing (`Model_Process`) | process_structure.py:21-266, utilities.py get_savepath, defaults of options.py used by ray tracing | a call is recorded as its method, name, media, layers, side and flags; options and path are passed through and left out of the record; keyword `material` of an Interface is not modelled; paths are absolute lists of names; isdir and mkdir are single steps, nothing removes directories |
| complete TMM matrices (`Model_Slab`) | tmm.py:60-112, 339-346, and the single matrices saved by ideal_cases.py | the columns of `Model_TMM` put together; one solver and one set of indices per wavelength |
| launching rays at one surface (`Model_Trace`) | rt.py:296-337, 2003, 2032, 2098-2105 | signed zeros of atan2 not modelled; positions, draws and refreshed heights are arguments |
| hyperhemisphere (`Model_Hyper`) | standard_rt_textures.py:105-336 | ConvexHull is an argument; keyword arguments other than height_distribution not modelled; a degenerate triangle has normal 0 instead of NaN |
| structure (`Model_Structure`) | structure.py: Interface, BulkLayer, Structure | materials are opaque; keyword arguments as pairs of names and values |

## Claims that are false of the code

Each has a `..._refuted` theorem with a witness (MANIFEST.json names it).

* C05 (A perfect mirror returns every ray specularly and transmits nothing): REFUTED as stated: for phi_symmetry = 2 pi and c_azimuth <= 1 channel 0 is transmitted. Proved for even-fold symmetry, or even azimuth counts in all rings.
* C06 (The Lambertian interface follows the cosine law): REFUTED: the share is cos(theta) dtheta, which lacks the sin(theta) of the projected solid angle.
* C07 (The incident power vector has unit power in the bin of the incident direction): REFUTED at phi_in = phi_symmetry (next polar ring) and for theta_in = pi/2 with all azimuths (zero power). Proved for every other phi_in >= 0 and theta_in < pi/2.
* C08 (Relabelling outgoing light as incoming light is a power-preserving bijection of the bins): REFUTED for odd symmetry m >= 3 with c_azimuth <= 1 (a channel loses its power). Proved for even m, for the full circle with fewer than about 10000 azimuth bins per ring, and for even azimuth counts.
* C15 (The bulk absorption profile integrates to the bulk absorption): REFUTED when the uninitialised memory left by np.divide(where=) is NaN and for a bulk not thicker than the depth spacing. Proved otherwise.
* C16 (The shape of calculate_RAT's result depends only on the structure and options): REFUTED when no light enters the bulk: only R is returned. Proved when the transmitted power exceeds I_thresh at some wavelength.
* C19 (An interrupted overwrite never leaves a mixture that is later loaded): REFUTED as stated: an overwrite killed between the RT and the A write leaves a mixed pair that is loaded later. Proved for histories without kills and with a fixed profile setting.
* C20 (Results of different interfaces never overwrite each other): proved for redistribution matrices of all names; REFUTED for lookup tables, whose file name <name>.nc can equal a profile file name
* C21 (After process_structure every matrix that calculate_RAT needs exists): REFUTED for Mirror/Lambertian above a bulk layer (rear never made) and for prof_layers on methods without profiles; proved otherwise
* C22 (Results reflect the options that were passed): REFUTED: the cache is keyed by name only; proved with overwrite=True or a new directory
* C25 (Incidence bins that received no ray give zero columns): REFUTED: np.divide(where=...) without out= leaves uninitialised memory in empty columns. Proved: absorption column is zero, and R/T column is zero when memory was zero or NaN.
* C26 (Absorbed rays are never counted as reflected or transmitted): REFUTED for a ray reflected exactly vertically (azimuth 0): counted in the last, downward, bin. Proved otherwise for both sides.
* C40 (Moving and re-randomising a surface keeps its shape): REFUTED: a refresh after a shift moves the base off the coverage height. Proved for shifts only and for refreshes only.
* C41 (Surface area): REFUTED: the edge vectors are not normalised before arccos; large pyramids give NaN. Proved exactly when it is right.
* C42 (V-groove texture has the requested width): REFUTED for width <> 1: the ridge ends at 1 instead of width. Profile and facet angle proved for every width, uniformity along the groove iff width = 1.
* C44 (A texture from a height map puts each height at its grid position): REFUTED for maps that are not square. Square maps are laid out transposed, consistently.
* C45 (Front and rear textures are mirror images): REFUTED for a nonzero coverage_height given by the caller. Proved otherwise.
* C47 (Rear incidence sees the same physical stack as front incidence): REFUTED for every coherency list that does not read the same backwards: TMM turns the layers but not the coherency list. Proved otherwise.
* C48 (Unpolarised light is the mean of s and p): REFUTED for partly coherent stacks: uninitialised memory when no layer absorbs; the analytic functions use the s solution twice. Proved for coherent stacks and for R, T and absorbing partly coherent ones.
* C49 (Incoherent layer absorptions add up to the total absorption): REFUTED for unpolarised light when no layer absorbs (uninitialised memory). Proved for s and p.
* C54 (Different diffraction directions get different azimuths): REFUTED for phi_symmetry = 2 pi: arctan(x/y) loses the sign, opposite orders get the same azimuth. Proved when phi_symmetry divides pi.
* C55 (Polarisation specification): REFUTED: '' is accepted as zero amplitude and any two characters are passed on as amplitudes. Proved for all other strings.
* C56 (RCWA redistribution columns conserve energy): REFUTED for rear incidence with two or more polar bins: the running sum is read from column i1 and written to column in_bin[i1]. Proved for the front (and the rear with one polar bin) for directions with reflected power; absorption proved for both sides.
* C57 (Rear incidence on a grating sees the same gratings in reverse order): REFUTED: geometries are not turned with the layers. Proved exactly for palindromic geometry lists.
* C59 (Every grating shape gets its own material): REFUTED: shapes find their material by its printed name, so two materials of the same name get the same permittivity. Proved when materials of the same name are equal, over histories of calculate, calculate_profile, set_size and set_widths.
* C60 (Repeated calculations use the same geometry): REFUTED: with Inkstone the vertices of a polygon with a centre are shifted in place at every wavelength and call. Proved for S4 and, with Inkstone, for all other shapes.
* C61 (Layer widths set by the user are the ones used): REFUTED: update_oc restores the widths of the construction when the wavelengths change. Proved while the wavelengths stay the same. For tmm_structure see C96.
* C62 (Profiles returned belong to the options passed): REFUTED: R, A, T of the last calculate are returned when only angle, polarisation, widths or geometry changed. Proved for a new object, for other wavelengths, and directly after calculate with the same options.
* C63 (Layer numbering is the same in all methods): REFUTED: get_fields_z_integral integrates over the layer above. Proved for the other methods (layer 0 see C108).
* C64 (Generation profile function places each profile at its own depth): REFUTED when only one interface has recorded passes: IndexError. Proved for both; layer tables laid out as TMM does; one bulk layer.
* C65 (Front and rear profiles of an interface have the same depth points): REFUTED for RCWA with widths that are not multiples of the spacing. Proved for TMM, and for RCWA with multiples.
* C70 (A folded azimuth of exactly 0 is binned in the ring of its theta): REFUTED for every grid and theta: azimuth 0 goes to the previous ring or index -1.
* C71 (Polar summaries of R/T and of absorption are on the same scale): REFUTED: theta_summary_A sums over incidence azimuths. Proved for every grid: the entries are those sums over the upper-half channels of the ring, the balance holds after dividing by the number of channels, and without the division exactly for rings of one channel or without absorption. The RT half is C66.
* C72 (A Lambertian interface lit from the rear scatters back to the rear): REFUTED: the matrix does not depend on the side.
* C74 (Profiles and matrices loaded together belong together): REFUTED by a history of three completed runs; holds with a fixed profile setting (C19_overwrite_partial)
* C75 (A run killed while writing can be resumed): REFUTED with the default overwrite=False (every later call raises); proved with overwrite=True from any directory
* C76 (Total internal reflection with a lookup table): REFUTED: the nearest tabulated angle may lie below the critical angle; holds if the selected entry has R >= 1
* C79 (A ray started inside a layer is attenuated on the way to the first surface): REFUTED: absorption is computed only after a surface interaction, so the first crossing of a ray started inside a layer is free; proved for all later crossings
* C82 (Local incidence angles of absorbed rays are recorded in the right ring): REFUTED for local angle exactly 0 (index -1: grazing ring). Proved for non-zero local angles; column sums proved always.
* C83 (The power of absorbed rays is split over layers ray by ray): REFUTED: rays are weighted by their total absorptance. Proved when the absorbed rays of a bin share the same layer proportions.
* C85 (Random heights are applied to both sides of a texture): REFUTED for regular_pyramids: the rear surface is made without the keyword arguments. Proved for xyz_texture.
* C89 (Textures fill the requested unit cell): REFUTED for a smooth cap wider than the cell. Proved for the other textures (V grooves: C42) and caps that fit.
* C90 (Stored profiles are labelled with their depth): REFUTED for rear incidence: the labels run against the data. Data order proved for both sides, labels for the front.
* C91 (Profile of an incoherent layer starts from the light that reaches it): REFUTED for s and p: the own absorption of the layer is subtracted and R is not. Proved for unpolarised light with respect to the s solution.
* C92 (Light at exactly the critical angle is kept): REFUTED for front incidence: T is stored among the reflected directions and overwrites R in the last ring. Proved for the rear.
* C93 (Lookup tables honour the list of sides): REFUTED: the stack is picked by position, the order of layers by value; a single side is rejected. The default list is C51.
* C94 (Unknown polarisations are rejected): REFUTED: every other string is treated as unpolarised ("" and "sp" are passed to the solver).
* C96 (tmm_structure describes the widths in use): REFUTED for the attribute width; the stack that is solved has the last widths.
* C99 (Degeneracy counts the different powers in a group): REFUTED: only the first wavelength is looked at. Proved for the first wavelength.
* C100 (RCWA matrices contain numbers only): REFUTED: division by the zero sum of reflected powers gives NaN.
* C101 (RCWA and TMM agree on flat structures): REFUTED for a full turn: the azimuths differ by pi. Proved when phi_symmetry divides pi, front incidence, below the critical angle.
* C102 (Stored RCWA profiles are labelled with their depth): REFUTED for rear incidence: data are flipped, labels are not. Proved for the front.
* C103 (Results already returned stay as they are): REFUTED: calculate_profile writes into the dictionary returned before. Proved for calculate and for all dictionaries but the last.
* C104 (An rcwa_structure can be used for other wavelengths): REFUTED for lists of another length with numpy 1.25 or later. Proved for equal lengths.
* C105 (S4 options that are not given take their defaults): REFUTED: make_S reads options["S4_options"], not the merged options; any one missing raises KeyError. Proved for the options used by calculate and calculate_profile.
* C106 (Absorption per order is available with both solvers): REFUTED: RCWA_structure_wl_inkstone returns no absorption per order, IndexError.
* C107 (Field methods use the wavelength asked for): REFUTED: the nearest stored wavelength is used, however far. Proved for stored wavelengths.
* C108 (Layer 0 is the incidence medium for the field methods): REFUTED: get_fields raises UnboundLocalError, get_fields_unit_cell looks into the first layer (S4).
* C109 (Every entry of the structure becomes a layer): REFUTED: lists of a length other than 4 or 5 are dropped. Proved for the documented forms.
* C110 (S4 and Inkstone are given the same structure): REFUTED for polygons with an angle. Proved otherwise.
* C111 (set_widths with the wrong number of widths is an error): REFUTED for too few widths: a shorter stack is solved, a layer in place of the transmission medium. Proved for too many.
* C113 (Shape materials may be given as lists): REFUTED: the set of materials needs hashable objects, TypeError.
* C114 (One object works with both solvers): REFUTED: an object built for Inkstone has no S4 options, TypeError.
* C115 (The width attribute is the total width in use): REFUTED: set_widths does not change width. Proved for histories without set_widths.
* C116 (edit_geom_list can change the material of a shape): REFUTED: a material no shape had at construction has no entry, ValueError.
* C118 (Printing a structure shows its elements): REFUTED: an appended element is never printed. Proved for the constructor followed by pop.
* C119 (Ray-traced interface profiles are shown at their own depth): REFUTED for requested layers not in increasing order and for widths that are not multiples of the spacing. Proved otherwise.
* C120 (Bulk profiles are shown at their own depth): REFUTED: below the first bulk layer the depth is wrong by up to one spacing, and a bulk layer without a grid point is a ValueError. Proved: the error is less than one spacing, and 0 exactly when the layers above add up to a multiple of the spacing.
* C122 (Rear incidence is measured from the rear side): REFUTED: samples are reversed, which moves them by width - (n-1) spacing. Proved: the distance is wrong by more than 0 and at most one spacing.
* C123 (Every local angle contributes to the profile): REFUTED: angles where A1 adds up to 0 are dropped, e.g. all of them for incoherent layers. Proved otherwise.
* C124 (Interface profiles of rt_structure integrate to the absorption): REFUTED: one ray with no tabulated absorption above 1e-10 makes the profile of its side 0. Proved when every ray has table entries above it in the requested layers and the summed profile has a positive integral.
* C126 (Generation function of a tmm_structure): REFUTED after set_widths and for profiles of some layers: ValueError. Proved for the widths of the construction and all layers.
* C127 (Generation function without bulk profile): REFUTED: no structure and result give a function.
* C129 (Random ray positions): REFUTED: nx x-coordinates and ny y-coordinates are drawn; the points are their product, and the same for all repetitions. Proved: each coordinate can be anything within the limits.
* C131 (Rays started inside a structure): REFUTED for the outer media: from below the ray starts above the last surface, from the incidence medium upwards it is checked against the last surface. Proved for the inner layers (between their nominal depths).
* C132 (Rays are moved into the unit cell): REFUTED for every cell whose corner is not (0, 0). Proved for cells that start at (0, 0).
* C136 (Wrong numbers of materials are rejected): REFUTED: one material too many gives no error, and the last interface is tabulated for another medium than the one listed under it. Proved: too few widths are an IndexError.
* C138 (only_incidence_angle): REFUTED for phi_in = "all": TypeError. Proved for a number.
* C139 (only_incidence_angle fills the column that is used): REFUTED for theta_in on an edge between polar bins: all rays are in a column without incident power. Proved off the edges and at 0.
* C140 (Rear incidence mirrors the interface): REFUTED for groups of several textures: inner media and textures are met in the order of front incidence. Proved for one texture.
* C141 (The default options fill the matrix): REFUTED: the defaults give 100 directions for 338 columns; the other columns keep the contents of uninitialised memory (with any number of directions below that of the channels). Proved: from 33800 rays on every column is set and adds up to one.
* C144 (only_incidence_angle applies to the front surface): REFUTED for TMM and RCWA front surfaces: the option is ignored. Proved for ray tracing.
* C147 (Save locations may be nested): REFUTED: os.mkdir makes one level; a missing parent is an error. One level is C146.
* C148 (Several runs may start at once): REFUTED: between isdir and mkdir another run can create the directory, and mkdir fails. Proved for existing directories, any number of runs, any order.
* C156 (Normals of a hyperhemisphere point outwards): REFUTED: a triangle is turned by the height of its middle (below 0.97 h: downwards), not by the side the sphere is on, so a triangle below the centre that looks slightly upwards ends with an inward normal; witness N_points = 5, radius = h = 1. Proved where middle and face agree.
* C157 (The units of a hyperhemisphere are arbitrary): REFUTED: points near the rim are counted in a window of 0.01 whatever the radius; witness N_points = 8, radius 1 (4 points) and 0.01 (6 points). Proved when the number of points is the same.
* C158 (A hyperhemisphere is open at the bottom only): REFUTED: the flat bottom is recognised by |N_z| > 0.9 and z < radius/10, which also holds at the bottom of a whole sphere (every N_points >= 51) and at the top of a cap no higher than radius/10 (N_points >= 90). All other faces are returned.
* C160 (The basis set belongs to the absorption per order): REFUTED: the absorption is calculated with the S4 options given to the constructor, the basis set with those given to calculate; with another LatticeTruncation the sizes differ. Proved when both are the same.
* C167 (A shape can be given a new material): REFUTED: the list of materials is fixed at construction, calculate fails
* C168 (Results returned with a profile belong to the structure as it is): REFUTED: R, T and A stored before the change are returned
* C170 (Absorbing media reflect by Fresnel at every angle): REFUTED: beyond arcsin(Re n1 / Re n0) everything is reflected, although light enters absorbing media at all angles; holds below (C170_below_partial)
* C172 (Lookup tables send light in the same direction as the Fresnel option): REFUTED: decide_RT_TMM takes the real part after multiplying with the complex n0 / n1; same direction when n0 / n1 is real or light falls straight on
* C188 (Several bulk layers share the incident light): REFUTED for two bulk layers: matrix_multiplication starts every bulk layer with the full incident light (multiply_matrices.py:400, 531), so two layers together are reported to absorb more than falls on the structure. Proved: the row of each layer is the result of that layer alone with its two interfaces, an interface is charged with what the layers above and below lose there, the incident light is counted once per layer, and for one bulk layer the light is accounted for. The documentation supports one bulk layer only, but nothing checks this.
* C189 (Every bulk layer's absorption is reported): REFUTED: the test for empty results (multiply_matrices.py:577) looks at the last bulk layer only. If no light enters the last one, the absorption of the others is dropped; if none enters an earlier one, ValueError. Proved: all rows are there if more than the threshold enters every bulk layer at some wavelength.
* C192 (The unit of length does not matter): REFUTED: check_intersect accepts points 1e-10 of the edge length outside a facet, single_interface_check moves on by the absolute 1e-9 (rt.py:2090, 2236), so for 100 um pyramids in um a ray can interact with two facets where the same texture in a larger unit gives one. Proved: pyramids below 30 degrees within the size bound of C191 give the same result in every unit.
* C193 (A ray reported as leaving has nothing ahead of it): REFUTED: after a miss only one neighbouring cell is tried (rt.py:1967-1973), and a ray going away from the texture is not followed further (rt.py:2008-2010): with 53 degree pyramids a reflected ray that crosses the next cell between two pyramids is reported as leaving although a pyramid two cells further lies in its way. Proved: after one interaction with a gentle texture (hypotheses of C190) the path is free; C193_absorbing_partial for complex indices.
* C195 (A ray reported as transmitted has crossed the surface): REFUTED: upright pyramids with slope 4/3 and light that falls 2e-10 from the border of the cell. The facet reflects it, the step of 1e-9 after the reflection takes it through the facing facet, and it goes on downwards below the surface; it is reported as transmitted (the sign of the z component is compared with that of the incoming ray, rt.py:2034-2040) although the code still has it on the side of incidence. Proved: for gentle textures (hypotheses of C190; refraction into a lower index left out) the outcome and the side agree.
* C197 (Without periodic boundaries light still obeys Snell at every surface): REFUTED: single_cell_check reports a ray that finds no facet as transmitted, so a ray past the edge of the cell changes medium without refraction, reflection or interaction; a layer thicker than the cell is wide lets light out beyond the critical angle. Proved for flat cells met within the cell.
* C198 (Rays come down where the grid of positions puts them): REFUTED: single_ray_stack keeps x and y of the point at height 0 and sets the height of the start above the surface, so the ray comes down (h + 1e-8) tan(theta) away; harmless with periodic boundaries, but without them the part of a tall surface well below its peak may be missed by all rays. The place where it comes down is proved.
* C199 (Light reflected by a texture that is not repeated is reported as reflected): REFUTED for all facet angles between 45 and 90 degrees: single_cell_check compares the signs of the z components only, so the reflected ray, which goes on downwards beside the pyramid, is reported as transmitted, and single_ray_stack takes it to be in the medium below. Proved for facet angles up to 45 degrees. Light straight from above, off the edges of the pyramid.
* C200 (Ray positions represent the cell evenly): REFUTED: the points go from 1 % to 99 % of the cell at equal distances (rt.py:186-209, 886-914), so the last point of a cell and the first one of the next are 2 % of the cell apart whatever the number of points; shares are equal for 50 points only. With one point it is at the edge and not in the middle. Proved: every ray of calculate and RT is traced from its point of the grid asked for, n_rays rounded up to whole grids and the directions of RT as asked for, and the default grid with two or more points is symmetric about the middle of the cell.

## Not modelled

Optical constants of materials, the electromagnetic solvers themselves, plotting, example scripts,
joblib parallelism (results are taken in list order as joblib guarantees), progress output.

## Assumptions per theorem

What `Print Assumptions` lists, by letter: D `ClassicalDedekindReals.sig_forall_dec`,
N `ClassicalDedekindReals.sig_not_dec`, F `FunctionalExtensionality.functional_extensionality_dep`,
C `Classical_Prop.classic`; "-": closed under the global context. All are from the standard library.

* **-**: `C18_single_computation`, `C18_next_run_completes`, `C19_overwrite_partial`, `C19_killed_overwrite_refuted`, `C20_files_distinct`, `C20_last_saved`, `C20_existing_kept`, `C20_lookup_clash_refuted`, `C21_files_exist_partial`, `C21_no_rear_refuted`, `C21_no_profile_refuted`, `C22_options_respected_partial`, `C22_stale_refuted`, `C22_stale_lookup_refuted`, `C23_get_wavelength`, `C50_coherency_list`, `C57_stack_partial`, `C68_names_unique`, `C68_read_back`, `C74_stale_profile_refuted`, `C75_torn_file_refuted`, `C75_overwrite_recovers_partial`, `C96_stack_partial`, `C97_all_orders`, `C105_options_partial`, `C108_fields_refuted`, `C109_entries_partial`, `C118_structure_listing_partial`, `C118_structure_listing_refuted`, `C137_results_by_wavelength`, `C140_rear_incidence_partial`, `C140_rear_incidence_refuted`, `C146_savepath`, `C147_nested_refuted`, `C147_project_refuted`, `C148_existing_partial`, `C148_race_refuted`, `C166_only_that_shape`
* **D**: `C57_stack_refuted`, `C63_z_integral_refuted`, `C71_absorption_entries`, `C115_width_refuted`, `C135_tables_requested`, `C142_media`, `C142_sides`, `C142_tables`, `C143_accepted`, `C144_only_incidence_partial`, `C144_only_incidence_rt_partial`, `C144_only_incidence_refuted`, `C145_arguments`
* **DF**: `C12_lossless_never_stops`, `C31_partition`, `C38_exit`, `C38_translate`, `C44_heights_partial`, `C44_heights_refuted`, `C46_entry`, `C46_unpolarised`, `C47_rear_partial`, `C47_coherency_refuted`, `C48_mean_partial`, `C48_profile_partial`, `C48_memory_refuted`, `C48_coefficients_refuted`, `C49_layers_partial`, `C49_unpolarised_refuted`, `C51_lookup_table`, `C58_sum_general`, `C58_sum`, `C63_numbering_partial`, `C64_generation_matrix_partial`, `C64_tmm_layout`, `C64_generation_one_interface_refuted`, `C65_tmm`, `C65_rcwa_partial`, `C65_rcwa_refuted`, `C66_theta_summary_keeps_power`, `C67_interface_construction`, `C67_interface_other_methods`, `C67_interface_empty_layer`, `C71_balance_partial`, `C71_balance_iff_partial`, `C73_interface_profile`, `C90_front_partial`, `C90_rear_z_refuted`, `C91_reaching_partial`, `C91_single_polarisation_refuted`, `C93_sides_refuted`, `C94_polarisation_refuted`, `C95_depths`, `C96_width_refuted`, `C102_front_partial`, `C102_rear_z_refuted`, `C104_wavelengths_partial`, `C107_wavelength_partial`, `C107_wavelength_refuted`, `C108_cell_refuted`, `C109_entries_refuted`, `C112_layer_unique`, `C113_list_material_refuted`, `C119_generation_rays_partial`, `C119_generation_fresnel`, `C119_generation_layer_order_refuted`, `C119_generation_layer_grid_refuted`, `C120_bulk_depth_partial`, `C120_bulk_depth_refuted`, `C120_thin_bulk_refuted`, `C121_positions_increasing`, `C126_generation_tmm_partial`, `C126_generation_new_widths_refuted`, `C126_generation_some_layers_refuted`, `C127_generation_without_bulk_refuted`, `C128_every_ray_traced`, `C128_positions_inside`, `C128_positions_even`, `C129_random_positions_partial`, `C129_random_positions_refuted`, `C132_moved_into_cell_partial`, `C132_moved_into_cell_refuted`, `C133_randomized_start`, `C134_structure_copies_textures`, `C136_counts_checked_partial`, `C136_counts_checked_refuted`, `C138_only_incidence_partial`, `C138_only_incidence_refuted`, `C145_widths`, `C200_middle_partial`, `C200_even_refuted`, `C200_single_refuted`
* **DNF**: `C02_fold_phi_canonical`, `C02_fold_phi_range`, `C02_needs_divisor`, `C15_uninitialised_refuted`, `C28_bookkeeping`, `C29_sides`, `C29_means`, `C30_thin_layer`, `C32_attenuation`, `C33_lookup`, `C36_draw_partition`, `C40_shift_or_refresh_partial`, `C40_refresh_after_shift_refuted`, `C42_grooves_partial`, `C42_width_refuted`, `C43_pyramids`, `C45_mirror_partial`, `C45_coverage_refuted`, `C52_reciprocal`, `C52_two_ways_agree`, `C53_grouping`, `C55_pol_partial`, `C55_pol_refuted`, `C56_energy_partial`, `C59_materials_partial`, `C59_names_refuted`, `C59_result_refuted`, `C60_geometry_partial`, `C60_geometry_refuted`, `C61_widths_partial`, `C61_widths_refuted`, `C62_fresh_partial`, `C62_after_partial`, `C62_stale_refuted`, `C76_reflecting_entry_partial`, `C77_path_attenuation`, `C77_final_absorption`, `C78_transparent_never_ends`, `C79_after_first_surface_partial`, `C84_surface_consistent`, `C85_both_sides_partial`, `C85_rear_heights_refuted`, `C86_rough_pyramids`, `C87_rough_planar`, `C99_degeneracy_partial`, `C99_degeneracy_refuted`, `C103_calculate_partial`, `C103_profile_partial`, `C103_shared_refuted`, `C104_wavelengths_refuted`, `C105_options_refuted`, `C106_inkstone_orders_refuted`, `C110_solvers_partial`, `C110_solvers_refuted`, `C111_too_many_partial`, `C111_too_few_refuted`, `C112_profile_values`, `C114_other_solver_refuted`, `C115_width_partial`, `C116_new_material_refuted`, `C117_calculate_returns`, `C122_rear_profile_partial`, `C123_angle_profile_partial`, `C123_angle_profile_refuted`, `C124_interface_profile_partial`, `C124_interface_profile_refuted`, `C125_profile_points`, `C130_incident_ray`, `C130_incident_ray_stack`, `C131_start_inside_down_partial`, `C131_start_inside_up_partial`, `C131_start_above_refuted`, `C154_surface`, `C154_rim`, `C154_succeeds`, `C155_upward`, `C156_outward_partial`, `C157_units_partial`, `C157_units_refuted`, `C158_faces_partial`, `C159_orders_add_up`, `C159_lossless_order`, `C160_basis_partial`, `C160_basis_refuted`, `C164_built_planar`, `C164_planar_surface`, `C165_cell`, `C166_edit`, `C166_materials`, `C167_new_material_refuted`, `C168_outdated`, `C168_outdated_refuted`, `C169_wave`, `C198_landing_partial`, `C198_aim_refuted`, `C198_lower_part_refuted`
* **DNFC**: `C01_polar_edges`, `C01_azimuth_edges`, `C01_angle_vector`, `C03_binning_unique`, `C03_centre_in_own_row`, `C04_lambertian`, `C05_mirror_specular_partial`, `C05_mirror_full_circle_refuted`, `C06_ring_share_linear_partial`, `C06_cosine_law_refuted`, `C06_cosine_law_default_spacing_refuted`, `C07_incident_azimuth_partial`, `C07_incident_all_azimuths`, `C07_phi_at_symmetry_refuted`, `C07_grazing_refuted`, `C08_relabelling_partial`, `C08_power_lost_refuted`, `C09_energy_conserved`, `C09_odd_symmetry_refuted`, `C10_fractions`, `C11_profile_independent`, `C12_terminates`, `C12_absorbing_bulk_terminates`, `C13_wavelength_independent`, `C14_beer_lambert`, `C15_bulk_profile_partial`, `C15_no_absorption_partial`, `C15_thin_bulk_refuted`, `C16_all_variables_partial`, `C16_missing_variables_refuted`, `C17_split`, `C24_ray_fractions`, `C25_empty_column_partial`, `C25_empty_column_refuted`, `C26_hemisphere_partial`, `C26_vertical_ray_refuted`, `C27_energy`, `C28_ending`, `C29_totals`, `C30_ray`, `C30_calculate`, `C32_profile`, `C32_shape`, `C33_reflect_refract`, `C34_total_reflection`, `C34_refraction_defined`, `C35_range`, `C35_unpolarised`, `C35_index_matched`, `C35_reciprocal`, `C35_sine_law`, `C35_tangent_law`, `C35_normal_incidence`, `C35_brewster`, `C35_critical`, `C37_complete`, `C37_sound_nearest`, `C39_contract`, `C39_absorbs`, `C39_gives_up`, `C39_bounded_misses`, `C39_cell`, `C41_area_partial`, `C41_area_refuted`, `C46_column`, `C54_azimuth_partial`, `C54_azimuth_refuted`, `C54_opposite_orders_merge`, `C56_columns_partial`, `C56_absorption`, `C56_rear_refuted`, `C69_one_interaction`, `C70_zero_azimuth_refuted`, `C71_summary_energy_refuted`, `C72_rear_lambertian_refuted`, `C76_lookup_refuted`, `C78_terminates`, `C79_start_inside_refuted`, `C80_pass_series`, `C81_regular_rays_conserve`, `C82_local_angles_partial`, `C82_normal_hit_refuted`, `C83_layer_split_partial`, `C83_layer_split_refuted`, `C88_hemisphere`, `C89_unit_cell_partial`, `C89_wide_cap_refuted`, `C92_rear_partial`, `C92_front_refuted`, `C98_grating_equation`, `C98_zero_order`, `C100_no_reflection_refuted`, `C101_flat_partial`, `C101_flat_refuted`, `C122_rear_profile_refuted`, `C131_start_below_refuted`, `C133_position_forgotten`, `C133_not_randomised`, `C133_later_checks`, `C139_incidence_column_partial`, `C139_incidence_column_refuted`, `C141_too_few_directions_refuted`, `C141_default_population_refuted`, `C141_default_population_partial`, `C149_slab`, `C149_slab_on_mirror`, `C150_energy`, `C151_fresnel`, `C151_table`, `C152_fresnel`, `C152_table`, `C153_same_bins`, `C156_outward_refuted`, `C158_whole_sphere_refuted`, `C158_cap_refuted`, `C161_ray`, `C161_start`, `C161_totals`, `C162_planar`, `C163_planar_light`, `C169_metal`, `C169_normal`, `C169_probability`, `C169_transparent`, `C170_every_angle_refuted`, `C170_beyond_refuted`, `C170_below_partial`, `C171_snell`, `C172_same_direction_refuted`, `C172_same_direction_partial`, `C173_energy`, `C173_planar_not_level`, `C174_flat`, `C174_place`, `C175_ends`, `C176_light_only`, `C177_mean`, `C177_balance`, `C177_reports`, `C177_one_average`, `C178_slab`, `C179_R0`, `C180_chance`, `C181_planar`, `C182_columns`, `C182_every_column`, `C183_close`, `C183_default`, `C184_default`, `C184_incidence`, `C185_energy`, `C185_textured_rear`, `C186_more_absorption`, `C187_light_trapping`, `C188_several_bulks_refuted`, `C188_each_alone_partial`, `C188_interfaces_partial`, `C188_counted_partial`, `C188_one_bulk_partial`, `C189_dropped_refuted`, `C189_exception_refuted`, `C189_all_rows_partial`, `C190_fresnel`, `C190_table`, `C190_exit`, `C190_absorbing`, `C190_absorbing_exit`, `C191_pyramids`, `C191_exit`, `C192_units_refuted`, `C192_small_partial`, `C193_steep_refuted`, `C193_gentle_partial`, `C193_absorbing_partial`, `C194_twice`, `C194_second`, `C195_edge_refuted`, `C195_gentle_partial`, `C196_twice`, `C196_absorbed`, `C197_met_partial`, `C197_beside_refuted`, `C197_straight_refuted`, `C197_snell_refuted`, `C199_gentle_partial`, `C199_steep_refuted`, `C199_structure_refuted`, `C200_calculate_partial`, `C200_matrices_partial`, `C201_calculate`, `C201_on_the_way`, `C201_interface`, `C201_matrices`
