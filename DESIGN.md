# Formal model of solcore5 in Rocq (Coq 8.16.1)

The model lives in `rocq/theories` (logical name `Verif`).  The code in `/repo`
was read as text; it was neither built nor run.

## 1. Layout

Per area there are two files:

| file | contents |
|---|---|
| `<Area>Model.v` | Gallina transcription of the Python functions, branch by branch. Each definition cites the file and lines it models and says what it simplifies. |
| `<Area>Props.v` | a small independent specification (what the English property means, written without the model's helper functions), the lemmas, and the theorems quoted in `MANIFEST.json`, each with an `Example` giving a concrete case that meets its hypotheses and a `Print Assumptions`. |

`Common.v` has exceptions and results.

Naming: `<name>` is a proved property, `<name>_partial` is the part of a
property that the code satisfies when the full one is false or is not
modelled, `<name>_refuted` is a proof that the full property fails for the
model, with the witness inside.

## 2. Modelling conventions

* Python exceptions are values: `Err KeyError`, `Err ValueError`, ... (`Common.v`).  No partial function is totalised silently; where the code raises, the model returns an error.
* Mutable objects are records threaded through state-transformers; a history is a list of operations folded over the initial state.
* Floating point numbers are idealised as real numbers (`R` of the standard library, `C` of Coquelicot).  Rounding, overflow, NaN and infinities are out of scope, and are mentioned where a branch of the code tests for them.
* numpy arrays are lists; broadcasting over a leading wavelength axis is modelled pointwise (one wavelength).
* Files are modelled as contents (maps), file writes as atomic or as a sequence of crash points where the property is about crashes.
* External programs and libraries (ngspice, Fortran PDD, sesame, rayflare, scipy quadrature/root finders, ConfigParser file syntax) are arguments (oracles) or are not modelled; the list is in section 5.

## 3. Areas: what is modelled and how it is proved

| files | code modelled | method |
|---|---|---|
| `Config*` | config_tools.py:16-284 (SolcoreConfig): in-memory config, user file, default file, observers | operations as a `step` on a state; invariants over histories, refinement to a map, crash points of a write as prefixes |
| `Sources*` | source_managed_class.py | fold induction over the list of sources |
| `Registry*` | registries.py | two-phase registration as a step relation, invariants over histories and interleavings |
| `State*` | state.py, solar_cell_solver.py:38-46 | refinement to an insertion-ordered map |
| `Struct*`, `MatStr*` | structure.py, solar_cell.py, material-to-text conversions | induction over histories; sorted keyword lists |
| `Tracker*` | science_tracker.py | invariant over histories |
| `Solver*`, `Num*` | solar_cell_solver.py: preparation, positions, dispatch (solver calls are events of a trace) | list induction, call traces |
| `Units*` | units_system.py, spectral conversions | field arithmetic, parser correctness |
| `Param*` | parameter_system.py | fuelled evaluator proved equivalent to a fuel-free rule system; termination by rank |
| `Interp*`, `Np*` | interpolate.py, numpy.interp/sort/argmax/trapz | search invariants, real inequalities |
| `IV*` | analytic_solar_cells/IV.py:9-128 | induction over junctions and samples |
| `Diode*`, `Tunnel*`, `DetBal*` | diode_equation.py, tunnel_junctions.py, detailed_balance.py | real analysis, integrals (Coquelicot), state machine of repeated measurements |
| `Depletion*` (Props, 2, 3, 4) | depletion_approximation.py: roles, widths, dark currents, Green's functions | ordinary differential equations, Green's identity, Sah's integral |
| `BeerLambert*` | optics/beer_lambert.py | telescoping products, integrals |
| `Tmm*`, `TmmLayers*`, `Inc*` | absorption_calculator/tmm_core_vec.py | 2x2 complex matrices, Poynting flux monotone along the stack, induction over the stack; net radiation equations for the incoherent part |
| `Stack*` | transfer_matrix.py:54-411 (OptiStack) | refinement of a list of layers over histories |
| `Light*` | light_source.py | field identities over lists, calculus of Planck's law |
| `LinAlg`, `Strain*`, `Kp*`, `Schrod*` (Props, 2) | quantum_mechanics/strain.py, strain_balancing.py, kp_bulk.py, kp_QW.py, potential_utilities.py | matrices over R and C, quadratic forms, intermediate values; the eigenvalue solver is a parameter with its specification |
| `Smooth*`, `Qw*` (Props, 2, 3) | smooth.py, structure_utilities.py, heterostructure_alignment.py, potential_utilities.py:160-195 | heap of layer objects; list induction |
| `Spice*` (Props, 2, 3, 4), `Quasi3D*` | spice/pv_module_solver.py, spice/quasi_3D_solver.py | netlists as lists of elements; injectivity of decimal texts; Kirchhoff's laws as a specification of the engine |
| `Pdd*` (Props, 2, 3) | poisson_drift_diffusion/DeviceStructure.py, DriftDiffusionUtilities.py and Set/Reset/RunIV/Get of DDmodel-current.f95 | writer monad of calls to the Fortran module; replay of the calls on its state |
| `Sesame*` (Props, 2, 3, 4) | sesame_drift_diffusion/process_structure.py and solve_pdd.py:46-351 | argsort and masks as list functions, aligned arrays; sorted meshes from arange/linspace/unique; the Sesame engine is a parameter |
| `Mobility*` | material_data/mobility.py and mobility_parameters.json | the table as a Gallina value, the alloy functions branch by branch; Rpower for real powers |
| `Crit*` | material_system/critical_point_interpolate.py:12-115 | dictionaries as lists; positions in sorted lists related to keys; sections by counting |
| `Material*` (Props, 2) | material_system/material_system.py: class cache, instances, numeric attributes | state machine of the class dictionary; dictionaries as association lists; classes identified by a counter |
| `DD*` (Props, 2, 3) | poisson_drift_diffusion/DDmodel-current.f95: carriers, recombination, residuals, Jacobian, currents, start values, damping, generation, RunIQE | arrays as functions of the node; telescoping sums, differential equation of an element, derivatives with Coquelicot |
| `Sopra*` | absorption_calculator/sopra_db.py (reading of the files and material_list left out), material_system.py: sopra_material, alpha, alphaE, radiative_recombination | total order of the keys of natsort; sorted permutations are equal; cells of np.interp; integrals by Coquelicot |
| `IncProfile*` | tmm_core_vec.py: inc_find_absorp_analytic_fn, inc_position_resolved; transfer_matrix.py: calculate_absorption_profile (incoherent part) | the two coherent solutions of each stack added up as densities, on top of C82 and C84; CPython's order of a set of small integers is assumed |
| `Rii*` | refractiveindex_info_DB: dbmaterial.py, dboperations.py (database of n and k, page selection); nk_db.py: download_db, nkdb_load_n/k; material_system.py: the nk branch of n_interpolated, k_interpolated | files as lists of items already parsed; SQL tables as lists of rows; selection by page shown to commute with the other entries |
| `Diel*` | dielectric_constant_models.py (all oscillators, DielectricConstantModel), kramers_kronig.py | oscillators as complex functions, `scipy.integrate.quad` as the Riemann integral of Coquelicot; printing left out |
| `Rcwa*` | optics/external_optics.py, optics/rcwa.py, absorption_calculator/rigorous_coupled_wave.py (not update_epsilon) | S4 as an arbitrary function of everything it has been told (sizes, options, materials, layers, regions, excitation); one wavelength; the dictionary of options as state; the list of a set in any order |
| `Circuit*` | spice/spice.py, output part of spice/pv_module_solver.py | lines and words as lists of characters; float and the engine as arbitrary functions; class attribute and default argument as state of a session |
| `Evol*` | optimization/differential_evolution.py | steps of yabox as an arbitrary list with the arrays at each time; rows kept as views (identity and index); pool as a state |
| `QwAbs*` | absorption_calculator/absorption_QW.py | pairs of states as lists; Cauchy-Schwarz for the trapezium rule for the overlap; arc tangent integral of the line |
| `Crystal*` | crystals.py | first Brillouin zone defined by its faces; invariant of the walk by induction over the critical points |
| `QwUnit*` | poisson_drift_diffusion/QWunit.py | layers and materials as heap objects; loops as folds that change one material each; slices of the grid by searchsorted; Schrodinger solver, erfc and k.p as arbitrary functions |
| `Ell*` | ellips and calculate_ellipsometry | numpy.angle by cases; on top of the coherent transfer matrix model |
| `DbPlanck*` | detailed_balance.py:56-66, the full Planck mode | monotonicity of the trapezoid sum term by term |
| `Smarts*` | smarts.py and the SMARTS and SPECTRAL2 sources of light_source.py | table of cards against blocks of code, formatting character by character, lookups in merged dictionaries |
| `Singleton*` | singleton.py | invariants over sequences of calls |
| `JAbs*` | beer_lambert.py: calculate_absorptance_PDD_and_DA, calculate_absorptance_DB (one wavelength for the first; layers lacking width or material not modelled) | shown to be the profile of the whole-stack routine (C39) inside the junction, whose integral is known |
| `Pick*` | material_system/critical_point_picker.py: CPPicker (files, clicks, keys, saving) | events as a state machine, invariant by induction over the events; the saved sections by induction over the confirmed points |
| `LoadCp*` | material_system/critical_point_interpolate.py: load_data_from_directory; critical_point_picker.py: float_re, guess_fraction, text of the saved file | the regular expression as a function on texts, induction over texts; the round trip picker, file, loader by induction over sections and points |
| `OldSources*` | source_managed_class.py: SourceManagedClassDeprecated | histories of calls over finite maps, induction over the history |
| `GraphQm*` | quantum_mechanics/graphics.py: L, structure_graph, normalise_psi, prepare_wavefunction_data(_only), LDOS1D_e, LDOS1D_h, calculate_in_plane_masses, options of the graphs | closed form of the integral of the line (arctangent), order of trapezoidal sums, induction over layers and levels, module defaults as state |
| `Graph*` | graphing/graph.py (square axes, colours, legend), graph_support.py (flatten), Custom_Colours.py (colours) | data as nested lists; colours as places in the map; induction over the data |
| `NkFiles*` | absorption_calculator/nk_db.py (search_db, create_nk_txt), refractiveindex_info_DB/dboperations.py (search_*, get_material_txt/csv), dbmaterial.py (to_txt, to_csv) | LIKE and str.replace on texts, files as a list; induction over texts and tables |
| `ToStruct*` | structure.py (ToSolcoreMaterial, ToLayer, ToStructure), DeviceStructure.py (AddLayers, RemoveLayer, LoadAbsorption, SolveQWproperties) | device as record with history of changes; induction over the history and the layers |
| `QwText*` | QWunit.py SolcoreMaterialToStr and the choice of the absorption of a layer in CalculateAbsorption (on MatStrModel.v) | words of the representation of a material; float() and the text of a number are parameters |
| `DDState*` | DDmodel-current.f95 (Reset, AddAbsorption, set_generation, Illumination, FrontBoundary, BackBoundary; of InitDevice, Equilibrium, LightSC, RunIV and RunIQE the flags) | module variables as a record, calls as steps; induction over sequences of calls; memory after the end of an array is a parameter |
| `DynMesh*` | DDmodel-current.f95 (DynamicMesh, Interpol), except the material arrays filled afterwards | sweep over the nodes as recursion with the state of the loop; induction over nodes and passes; CEILING of infinity is a parameter |
| `ConfAcc*` | config_tools.py: __getitem__, sources, units, parameters, materials, spice, smarts and all deprecated functions (on ConfigModel.v) | unfolding over finite maps; deprecated functions compared with the operations of ConfigModel.v |
| `DepLight*` | depletion_approximation.py: identify_parameters, light part of iv_depletion, qe_depletion (mode green, one wavelength; the mode bvp and the interpolation over wavelengths are not modelled) | integrals of Coquelicot with the bound of C79; meshes of 1001 points by general lemmas |
| `Cppb*` | Custom_CPPB.py lines 34-703 and Oscillator of dielectric_constant_models.py; regular expressions in names of materials, division by zero and empty structures are not modelled | sections of a file against rendered entries; closed forms over C; dictionaries on a heap |
| `EllData*`, `EllFit*` | ellipsometry_analysis.py: EllipsometryData and EllipsometryFitter, on the cached stack of transfer_matrix.py | records of a file against its words; places of free variables; caches as association lists; minimiser as any sequence of trials |
| `NewMat*` | create_new_material.py with the parts of the configuration, parameter and material systems it uses | files as finite maps; definitions of options through merged files; sessions by restart |
| `BulkKp*` | kp_bulk.py kp_bands, KPbands, fit_effective_masses, averages, kp8x8_bulk | eigenvalue solver and curve_fit as parameters (what is assumed of the fit is stated); normal equation of the least squares; explicit spectrum of decoupled materials |
| `BandQw*` | kp_QW.py holes, band_sorting, solve_bandstructure_QW; high_level_kp_QW.py modes kp4x4 and kp6x6 | the solver of eigenvalues as a parameter; membership and counting of bands; true eigenvectors on two points for the refutations |
| `OldQe*` | analytic_solar_cells/QE.py, quantum efficiency of stacks | currents as integrals of generation times collection probability; induction over the stack |
| `Adachi*` | adachi_alpha.py, Adachi dielectric function | closed form with Heaviside steps as maxima; complex roots of Coquelicot |
| `MatText*` | material_system.py:426-451, texts of alloys | replace and format character by character |
| `Rat*` | optics/tmm.py: solve_tmm, absorbed, calculate_absorption_tmm; transfer_matrix.py: calculate_rat, calculate_absorption_profile (coherent part) | bookkeeping by induction over the cell on top of C42, C82 and C84; integrals by Coquelicot |
| `Spectral2*` | light_source/spectral2.py: calculate_spectrum_spectral2 (the table is a parameter; the conversion to eV is that of C13) | monotonicity of every attenuation factor; mean value theorem for the air mass; intermediate value theorem for the witness below the horizon |
| `Rad*` | analytic_solar_cells/IV.py: solve_radiative_coupling | balance of the light passed on from junction to junction; order of two operating points by strong induction over the junctions |
| `DDMesh*` | DDmodel-current.f95: AddLayer, AddMasterNode, CreateMesh and the filling of the node arrays | increments of an interval with their sum and bounds, concatenated over the sorted master nodes |
| `Band*`, `Newton*` | DDmodel-current.f95: banded LU with partial pivoting, the compact Jacobian with the surface rows, the correction and the loop of SolveNonLin | rows as linear forms with the column of their first place; each elimination step can be undone; a zero pivot yields a kernel vector; derivatives along the correction |

### Outcome per property

The full statements are in `properties.jsonl`. "partial" means that the statement is false of the model (the `_refuted` theorem carries the witness) or that part of it is not modelled; the `_partial` theorems say what does hold.

| id | property | status | outcome | theorems (file) |
|---|---|---|---|---|
| C01 | Configuration writes are durable | partial | Holds for every history when the user data has all shipped sections; fails (refuted) when restore_defaults raises half way because a shipped section is missing. | ConfigProps: `C01_writes_durable_partial`, `C01_writes_durable_without_sections_refuted` |
| C02 | reset_defaults brings the configuration back to the shipped defaults | partial | reset_defaults fixes the file but keeps the old live data; the next save brings it back (refuted). | ConfigProps: `C02_reset_partial`, `C02_reset_refuted` |
| C03 | Saving the configuration survives a crash at any point | partial | The file is truncated and rewritten in place: every crash point leaves a prefix of the new file, so old data can be lost (refuted); the partial theorem says exactly what survives. | ConfigProps: `C03_crash_safe_partial`, `C03_crash_safe_refuted`, `C03_crash_silent_loss_refuted` |
| C04 | Observers of a configuration section track it | partial | Observers see every set; remove/restore/reset do not notify (refuted). | ConfigProps: `C04_observers_track_partial`, `C04_observers_track_refuted` |
| C05 | Restoring the defaults keeps user-added entries and fixes every default entry | partial | Holds when every shipped section exists in the user data; otherwise KeyError (refuted). | ConfigProps: `C05_restore_defaults_partial`, `C05_restore_source_partial`, `C05_version_change_partial`, `C05_new_section_refuted` |
| C06 | A later source overrides an earlier one, and nothing else changes | proved | Full statement for every list of sources. | SourcesProps: `C06_last_source_wins`, `C06_sources_follow` |
| C07 | Removing a data source removes its data | partial | Removing or disabling a source does not remove its options from the already merged database (refuted). | SourcesProps: `C07_remove_source_partial`, `C07_remove_source_refuted`, `C07_disable_source_refuted` |
| C08 | Alloy parameters reduce to the parents at the end compositions | partial | Exact at the ends, and between the parents without bowing, for every parameter taken from the alloy rule; for final calculables under stated conditions; refuted without them (tget alternative when one parent lacks the parameter). | ParamProps: `C08_alloy_ends_partial`, `C08_final_calculables_at_ends_partial`, `C08_alloy_ends_refuted` |
| C09 | Parameter lookup follows one fixed precedence | proved | The lookup is equivalent to a declarative system of rules (no fuel); answers are unique. | ParamProps: `C09_lookup_precedence`, `C09_lookup_unique` |
| C10 | Parameter lookup terminates on layered databases | partial | Terminates whenever the calculables are layered, even with circular alloys; a material that is its own parent raises KeyError instead of looping (refuted); a self-referring calculable diverges. | ParamProps: `C10_layered_lookup_terminates`, `C10_own_parent_refuted`, `C10_self_reference_diverges` |
| C11 | Unit conversion round-trips | proved | Round trip, transitivity, positivity of tables, parsing of compound units, meaning of prefixes and of "number unit" texts, all proved in full (ideal reals). | UnitsProps: `C11_unit_round_trip`, `C11_convert_same_amount`, `C11_tables_positive`, `C11_compound_units_parse`, `C11_prefixes`, `C11_value_with_unit` |
| C12 | Photon energy / wavelength / frequency conversions are involutions and agree | proved | Full statement (ideal reals). | UnitsProps: `C12_photon_conversions` |
| C13 | Spectral conversion preserves the spectrum | proved | Full statement (ideal reals). | UnitsProps: `C13_spectral_conversion` |
| C14 | compare_floats decides relative closeness | partial | Absolute mode and positive numbers proved; negative numbers always compare equal and zero raises (refuted). | UnitsProps: `C14_compare_floats_partial`, `C14_compare_floats_refuted` |
| C15 | sensibleUnits returns a unit that denotes the same quantity | partial | Every nonzero value raises: indexing dict.keys() (refuted); zero is printed. | UnitsProps: `C15_sensible_units_partial`, `C15_sensible_units_refuted` |
| C16 | A registered solver is never silently replaced | partial | Refusal of duplicates, isolation, monotonicity and storage proved for every history; the check is made when the decorator is built and the store when it is applied, so a second decorator can silently replace the first (refuted). | RegistryProps: `C16_duplicate_rejected`, `C16_isolated_and_excluded`, `C16_entries_never_disappear`, `C16_no_silent_replacement_partial`, `C16_registration_stores`, `C16_no_silent_replacement_refuted` |
| C17 | State behaves as an insertion-ordered mapping with attribute access | proved | Refinement to an ordered map; method names are shadowed by attribute writes (second theorem). | StateProps: `C17_state_is_ordered_map`, `C17_method_names_shadow` |
| C18 | Option merging: later options win, inputs are untouched | proved | Full statement. | StateProps: `C18_merge_last_wins` |
| C19 | Layers and labels of a structure stay aligned | proved | Full statement for append/append_multiple histories; the additional refutation shows that inherited list methods (extend, pop) are not covered by the class. | StructProps: `C19_labels_aligned`, `C19_list_methods_refuted` |
| C20 | Relative widths form a partition of the structure | proved | Full statement (widths as reals). | StructProps: `C20_relative_widths_partition` |
| C21 | Junction bookkeeping of a solar cell | proved | Full statement; negative indices are also accepted (second theorem). | StructProps: `C21_junction_bookkeeping`, `C21_negative_index` |
| C22 | The series resistance does not depend on how the cell was assembled | partial | append does not add R_series (refuted); exact condition for agreement proved. | StructProps: `C22_series_resistance_partial`, `C22_series_resistance_refuted` |
| C23 | Material strings keep the composition | partial | Only the alphabetically first keyword is read: proved when it is the alloy element, refuted otherwise (GaAsP with P and Na). | MatStrProps: `C23_material_string_partial`, `C23_material_string_refuted` |
| C24 | Preparation assigns contiguous offsets | partial | Proved for cells of distinct objects; a repeated object (append with repeats=2) shows one offset for both positions (refuted). | SolverProps: `C24_offsets_partial`, `C24_offsets_refuted` |
| C25 | Unknown tasks and methods are rejected | partial | Unknown tasks and unknown junction kinds are rejected, exact call traces proved; an unknown optics method is accepted when the cell was solved before (refuted). | SolverProps: `C25_unknown_task_rejected`, `C25_dispatch`, `C25_unknown_kind_rejected`, `C25_unknown_method_refuted`, `C25_unknown_method_rejected_partial` |
| C26 | Position vectors given by the user are used as given | partial | Exact for all lengths except the number of elements / layers, where positions are taken for step sizes (refuted). | SolverProps: `C26_positions_partial`, `C26_element_steps`, `C26_layer_steps`, `C26_positions_refuted` |
| C27 | Linear interpolation passes through its data and stays within it | proved | Full statement for kinds linear and nearest on 1-D tables; splines (scipy) are not modelled. | InterpProps: `C27_linear_in_range`, `C27_out_of_range`, `C27_nearest` |
| C28 | Bilinear interpolation reproduces its grid | partial | Proved on the half-open rectangle; at the upper edges the answer is always 0 (refuted). | InterpProps: `C28_bilinear_partial`, `C28_shapes_checked`, `C28_bilinear_refuted` |
| C29 | Series connection: equal current, additive voltage | partial | series law at every computed node for any monotone tables and tunnels, and between nodes for resistive tunnels; fails outside the computed voltage range (np.interp clamps), refuted by witness; radiative coupling not modelled | IVProps: `C29_accepts`, `C29_series_law_partial`, `C29_out_of_range_refuted` |
| C30 | Reported maximum power point is the maximum | proved | all samples; NaN samples not modelled (reals) | IVProps: `C30_maximum_power_point`, `C30_isc_voc` |
| C31 | Diode equation: monotone, anchored at -Jsc | partial | curve proved for all physical junctions; J02-from-Voc exact for R_shunt <= 1e14; with the default shunts (1e15 in the helper, 1e14 cap in the solver) the current at Voc is not zero (refuted) | DiodeProps: `C31_diode_curve`, `C31_open_circuit_partial`, `C31_open_circuit_refuted`, `C31_reference_point` |
| C32 | Temperature update of the saturation current | proved | identity, composition, growth, when it raises; agreement with the solver's own correction for ideality factors 1 and 2 | DiodeProps: `C32_update_j0`, `C32_solver_agrees` |
| C33 | Light IV does not depend on an earlier dark IV | partial | holds for any history of light measurements under one source; a dark measurement stores jsc=0 and erases the photocurrent for good, and a first light measurement freezes the photocurrent for other sources (both refuted) | DiodeProps: `C33_light_history_partial`, `C33_dark_erases_photocurrent`, `C33_dark_first_refuted`, `C33_other_source_refuted` |
| C34 | Tunnel junction voltage/current functions are inverse | partial | resistive proved for R>0 (R=0 refuted, no minimum is enforced); external solver raises AttributeError on every new junction with >= 2 points | TunnelProps: `C34_resistive_inverse_partial`, `C34_zero_resistance_refuted`, `C34_external_partial`, `C34_external_new_junction_fails`, `C34_external_refuted` |
| C35 | Detailed-balance absorptance is a fraction with a sharp edge | partial | edge at 1240 nm eV instead of hc/q (refuted), negative A accepted (refuted), rest proved | DetBalProps: `C35_absorptance_partial`, `C35_edge_refuted`, `C35_negative_refuted`, `C35_qe` |
| C36 | Depletion widths conserve charge | partial | signs, monotonicity and vanishing proved in both expressions; charge balance and the Poisson drop proved for the two-sided expression with one permittivity; refuted for the one-sided expression and for different permittivities | DepletionProps: `C36_depletion_widths_partial`, `C36_charge_balance_refuted`, `C36_one_sided_balance_partial` |
| C37 | Layer identification of a junction | partial | the accepted lists are characterised exactly; the base's doping is never looked at, so two n-type layers are accepted (refuted) | DepletionProps: `C37_identify_layers_partial`, `C37_same_type_refuted`, `C37_refusals` |
| C38 | Dark diffusion current vanishes at equilibrium | partial | zero at zero bias when the lifetimes differ; with equal lifetimes the SRH factor is 0/0 = nan (refuted); increasing with bias at fixed depletion width and under the stated conditions at shrinking width, refuted in general | DepletionProps2: `C38_diffusion_current_partial`, `C38_diffusion_increases_refuted`, `C38_dark_current_at_zero_partial`, `C38_equal_lifetimes_refuted` |
| C39 | Beer-Lambert conserves energy | proved | one wavelength at a time; integral in the sense of Coquelicot's is_RInt | BeerLambertProps: `C39_energy`, `C39_profile` |
| C40 | Absorption is attributed to the element that absorbs | partial | proved for cells where every 2D/DB junction has exactly one layer; refuted for layer-less DB junctions (n_layers_junction counts 0 for the slab they add) | BeerLambertProps: `C40_attribution_partial`, `C40_element_profile_partial`, `C40_layerless_refuted`, `C40_layerless_slab_partial` |
| C41 | The absorption profile depends only on the queried depth | partial | proved for non-decreasing depths; refuted for others (wrong zero, IndexError) | BeerLambertProps: `C41_profile_pointwise_partial`, `C41_order_refuted` |
| C42 | TMM: energy conservation of coherent stacks | partial | energy balance over all layers, for passive stacks, both polarisations and all angles below total reflection of the incident side, with the capped phase excluded (Im delta <= 100 or the layer is not an extreme metal); reciprocity of T for lossless outer media | TmmProps: `C42_balance_partial`, `C42_entering`, `C42_reciprocity_partial`, `C42_lossless`, `C42_unpolarised_partial` |
| C43 | Interface coefficients obey the Stokes relations | proved | Stokes relations between r and t from both sides, R from r, T from t | TmmProps: `C43_stokes`, `C43_polarisation` |
| C44 | Depths map to the right layer | partial | proved for non-negative depths; a negative depth returns the last layer (index -1 of the searched list, refuted), and the returned index counts from 1, unlike the docstring (refuted) | TmmLayersProps: `C44_inverse_partial`, `C44_negative_refuted`, `C44_docstring_refuted` |
| C45 | Grouping into coherent stacks and incoherent layers is a partition | proved | Full statement. | TmmLayersProps: `C45_accepts`, `C45_partition`, `C45_stacks` |
| C46 | Analytic absorption function operations | partial | flip, scale, add, and array run against scalar run; add accepts functions that differ at some wavelengths (refuted), and array run drops the growing part when A1 < 1e-100, so a flipped opaque layer reads zero (refuted) | TmmLayersProps: `C46_operations_partial`, `C46_add_partial`, `C46_add_refuted`, `C46_array_partial`, `C46_opaque_flip_refuted` |
| C47 | Optical stack bookkeeping | partial | refinement of a list of layers for every history of well-formed layers; a layer whose construction fails half way leaves its width behind (refuted), and the remembered input layers do not follow removals (refuted) | StackProps: `C47_swap_meaning`, `C47_refines_partial`, `C47_failed_layer_refuted`, `C47_layers_list_refuted`, `C47_error_stops` |
| C48 | Each layer of an optical stack keeps its own optical model | partial | own index for every layer as long as no mixed layer has a layer after it; a mixed layer takes the model of the last layer at the time of reading (refuted); tabulated data proved at the samples and outside the table; the cache around n and k keeps the first answer | StackProps: `C48_own_index_partial`, `C48_absorber_partial`, `C48_late_binding_refuted`, `C48_cache_partial`, `C48_cache_first`, `C48_raw_data` |
| C49 | Output units of a light source describe the same spectrum | proved | all ten converters, for every power spectrum and positive abscissas | LightProps: `C49_output_units` |
| C50 | Custom spectra round-trip through their input units | partial | exact round trip for nine of the ten input units; photon_flux_per_hz multiplies with the abscissas in the wrong order (exact factor proved, refuted); the registered names per_ev/per_joule are not accepted as input units (refuted) | LightProps: `C50_roundtrip_partial`, `C50_photon_hz_partial`, `C50_unit_names_refuted`, `C50_photon_hz_refuted` |
| C51 | spectrum(x) returns the abscissas it was asked for | partial | holds when the stored abscissas are used; requested abscissas are not returned (refuted) and None is returned for internal ones (refuted) | LightProps: `C51_abscissas_partial`, `C51_requested_refuted`, `C51_internal_refuted` |
| C52 | Strain balancing gives zero average stress | partial | zero stress and minimal energy for both thickness options; well fraction up to the tolerance of the bisection; the barrier fraction search can return the pole at lattice matching (refuted); negative thicknesses are returned for equal signs of strain (refuted) | StrainProps: `C52_zero_stress`, `C52_thickness_sign`, `C52_positive_thickness_refuted`, `C52_well_fraction`, `C52_barrier_fraction_refuted`, `C52_unknown_option_ignored` |
| C53 | Strain shifts have the documented signs | partial | checks pass exactly for ac<=0, b<=0; directions, lattice matching and agreement with kp4x4/kp6x6; the split-off shift contains the splitting (refuted) | StrainProps: `C53_sign_checks`, `C53_agrees_with_kp`, `C53_directions`, `C53_lattice_matched_partial`, `C53_split_off_refuted` |
| C54 | The 8-band Hamiltonian is Hermitian | proved | Hermitian, eigenvalues real; any solver output meeting the eigenvector specification gives the four doubly degenerate bands (C54_bands). | KpProps: `C54_hermitian`, `C54_eigenvalues_real`, `C54_bands` |
| C55 | Effective masses do not depend on which function computes them | partial | Electron mass, heavy-hole mass along growth and light-hole mass across agree; the other two are exchanged whenever gamma2 > 0 (refuted). | QwProps: `C55_masses_partial`, `C55_masses_refuted` |
| C56 | The discretised Schrodinger operator is symmetric and bounded below | partial | Real levels not below the bottom on any increasing mesh; symmetric on uniform meshes only (refuted otherwise); periodic corners symmetric only when the end masses agree (refuted otherwise). | SchrodProps: `C56_symmetric_partial`, `C56_levels`, `C56_nonuniform_refuted`, `C56_energies`, `C56_periodic_partial`, `C56_periodic_refuted` |
| C57 | Quantum well assembly | partial | Proved for n >= 1; n <= 0 still builds one well (refuted). | QwProps: `C57_assembly_partial`, `C57_no_repeats_refuted` |
| C58 | Smoothing keeps the length and constants | partial | Flat window: length, constants, range and exact moving average proved; every other window, the default included, raises NameError and one-sided blurring raises TypeError (refuted). | SmoothProps: `C58_smooth_partial`, `C58_windows_refuted`, `C58_short` |
| C59 | Citations are recorded once | partial | The bibliography is keyed by calling function: one entry per function proved for every history; one entry per reference is false (refuted). | TrackerProps: `C59_citations_partial`, `C59_citations_refuted` |
| C60 | Materials are cached consistently | partial | Same class proved as long as the database holds the same of the named material; sources proved at the first request; kinds proved for names whose keys cannot clash. Refuted: a later read of another source does not reach classes already made, whether a name is taken from SOPRA depends on what was asked before, and two different requests can have the same key. | MaterialProps: `C60_same`, `C60_sources_partial`, `C60_kind_partial`, `C60_distinct_partial`, `C60_stale_refuted`, `C60_sopra_refuted`, `C60_collision_refuted` |
| C61 | Critical-point interpolation is exact at the tabulated compositions | proved | Proved at every tabulated composition (including the first, where the lower neighbour wraps round to the last) and between; outside the range: IndexError above, extrapolation along the line from the last to the first composition below. | CritProps: `C61_exact`, `C61_between`, `C61_outside` |
| C62 | Low-field mobility stays within its limits | partial | Bounds and monotony proved for the parameters of the shipped binaries up to a temperature limit; above it (GaAs electrons) the maximum falls below the minimum (refuted). End points proved for most alloys; GaInP electrons at In=1 and InAsP are refuted. | MobilityProps: `C62_partial`, `C62_binaries`, `C62_refuted`, `C62_quad`, `C62_linear`, `C62_epsilon`, `C62_fraction`, `C62_InGaAs_ends`, `C62_GaInP_holes`, `C62_general_ends`, `C62_quaternary_ends`, `C62_Al_holes`, `C62_InGaAs`, `C62_refuted_ends`, `C62_refuted_InAsP`, `C62_unknown`, `C62_refuted_spelling`, `C62_no_temperature`, `C62_valleys`, `C62_quaternary_lower` |
| C63 | SPICE netlists of a module have unique element names and a closed chain of nodes | proved | Full statement. | SpiceProps: `C63_netlist` |
| C64 | Quasi-3D results are stored at the node they belong to | partial | Proved below ten junctions and a thousand pixels per direction; one more character in the location and the last digit of y is lost, so ten pixels share one entry (refuted). | SpiceProps2: `C64_location_partial`, `C64_location_overflow`, `C64_location_refuted` |
| C65 | PDD IV runs at the requested temperature | partial | Falsified: no entry point hands a temperature to the Fortran module, which stays at 300 K; the temperature only moves the voltage limit beyond the gap. | PddProps2: `C65_temperature_ignored`; PddProps3: `C65_temperature_refuted` |
| C66 | Positive and negative IV branches are joined without gap or duplicate | proved | Full statement. | PddProps: `C66_branches` |
| C67 | Sesame IV sorts its voltages | partial | Proved for n-p junctions and for p-n junctions with a positive or no negative voltage; with only negative voltages on a p-n junction the arrays are in decreasing order and the interpolator returns two constants (refuted, and characterised for every such list). | SesameProps: `C67_partial`, `C67_reversed`, `C67_refuted` |
| C68 | Sesame mesh generation succeeds and covers the device | partial | Proved under explicit conditions (default spacings: 2 um or more and a junction depth outside 89.6-90 %), and for the refinement; thin junctions, equal spacings, deep junctions in thin cells, missing junctions, short rear parts and shallow junctions in thin cells fail (refuted). | SesameProps3: `C68_partial`, `C68_defaults`, `C68_thin`, `C68_equal_spacing`, `C68_deep_thin`, `C68_no_junction`, `C68_refuted_back`, `C68_refuted_order`, `C68_update`, `C68_update_constant`; SesameProps4: `C68_dense`, `C68_update_dense` |
| C69 | Doping is assigned to every mesh point exactly once | proved | Full statement; points beyond the back get 0. | SesameProps2: `C69_doping` |
| C70 | Device structure layer count | proved | Full statement. | PddProps: `C70_layer_count` |
| C71 | Boolean preferences read back as set, and the shipped preferences are on | partial | Set-then-read proved; the shipped value "1" reads as False (refuted). | ConfigProps: `C71_flags_partial`, `C71_flags_refuted` |
| C72 | A registered junction solver is the one that runs | partial | Proved for equilibrium and short_circuit; the IV task never consults IV_SOLVER_REGISTRY (refuted). | SolverProps: `C72_registered_solver_used_partial`, `C72_iv_registry_refuted` |
| C73 | The default depth mesh lies inside the cell | partial | Proved when no 2D/DB junction has its own width; refuted otherwise. | SolverProps: `C73_default_mesh_partial`, `C73_default_mesh_refuted` |
| C74 | Optical results belong to the options of the call | partial | Proved when the optics step runs; results of an earlier call are silently reused otherwise (refuted). | SolverProps: `C74_optics_current_partial`, `C74_optics_current_refuted`, `C74_other_tasks_partial` |
| C75 | J02 from a radiative efficiency gives that efficiency | partial | reference helper proved; calculate_J02_from_rad_eff adds the shunt current with the wrong sign (refuted, exact error in the partial theorem) | DiodeProps: `C75_reference_efficiency`, `C75_rad_eff_partial`, `C75_rad_eff_refuted` |
| C76 | J01 is the Boltzmann emission above the gap | proved | Coquelicot integral | DiodeProps: `C76_J01_is_emission` |
| C77 | Parametric tunnel junction: usable inverse and no current at zero bias | partial | monotone below the peak and mirror symmetry proved; the interpolation abscissa can decrease beyond the peak and current flows at zero bias (refuted) | TunnelProps: `C77_parametric_partial`, `C77_not_monotone_refuted`, `C77_current_at_zero_bias_refuted` |
| C78 | Detailed-balance IV curve | partial | Boltzmann mode; full Planck mode not modelled; externally given EQE without absorptance raises (refuted) | DetBalProps: `C78_detailed_balance_curve`, `C78_external_eqe_refuted`, `C78_two_temperatures`, `C78_internal_reflection` |
| C79 | Photocurrent of a neutral region | partial | agreement of the Green's function with any solution of the boundary value problem for (xb-xa)/L <= 100; beyond that the asymptotic kernel is an approximation, for which only the collection bound is proved | DepletionProps3: `C79_green_solves_bvp_partial`, `C79_collection_bounded` |
| C80 | Recombination factor equals Sah's integral | partial | integral proved for b<1 and 1<b<1e7; b=1 gives nan (C38_equal_lifetimes_refuted); for b>=1e7 the approximation overestimates by an unbounded factor (refuted) | DepletionProps3: `C80_sah_integral_partial`, `C80_reverse_bias_refuted` |
| C81 | Each junction keeps its own absorption coefficient | partial | the closure reads the loop variables after the loop: own value only for the last element (refuted otherwise) | BeerLambertProps: `C81_stored_alpha_partial`, `C81_late_binding_refuted` |
| C82 | Absorbed density is minus the slope of the Poynting vector | proved | Full statement. | TmmLayersProps: `C82_density`, `C82_analytic` |
| C83 | A mixed optical layer passes smoothly from data to model | partial | real part is the documented mixture; the imaginary part adds the tabulated k in full (refuted) | StackProps: `C83_mixture_partial`, `C83_extinction_refuted` |
| C85 | Default abscissas of a light source fit the output units | partial | holds per nm; internal abscissas are nm whatever the units (refuted) | LightProps: `C85_default_units_refuted`, `C85_default_nm_partial` |
| C86 | Options changed in a spectrum() call take effect | partial | equal to a new source whenever that source can be built and abscissas are given; failed updates return the old spectrum and default abscissas are those before the change (refuted) | LightProps: `C86_update_partial`, `C86_only_existing`, `C86_failed_update_refuted`, `C86_stale_abscissas_refuted` |
| C87 | Laser and black body spectra have the right shape | partial | Planck's law, monotonicity, scaling; laser symmetry and peak; the black body default abscissas start at 0 (refuted) | LightProps: `C87_black_body`, `C87_laser`, `C87_default_zero_refuted` |
| C88 | The 6-band masses keep the sum of inverse masses | proved | sum rule for both directions | StrainProps: `C88_mass_sum` |
| C89 | The critical thickness solves the Matthews-Blakeslee condition | partial | a solution within the tolerance for constants between 2 and 1e8; for large misfits the pole is returned (refuted); lattice_fraction is ignored (refuted) | StrainProps: `C89_critical_thickness_partial`, `C89_no_solution_refuted`, `C89_lattice_fraction_refuted` |
| C90 | The eight-band model has the analytic band edges at the zone centre | partial | Edges proved at zone centre; the heavy/light relabelling is by position in the sorted list, wrong when the strain moves the light holes up with b > 0 (refuted). | KpProps: `C90_edges_partial`, `C90_labels_refuted` |
| C91 | The coupled hole Hamiltonian is symmetric and decouples at zero in-plane wave vector | partial | Symmetric for position-independent Luttinger parameters with any potential; not symmetric where they change (refuted); decoupled at kt = 0 with the 4-band masses. | SchrodProps2: `C91_symmetric_partial`, `C91_interface_refuted`, `C91_zone_centre_partial` |
| C92 | Wave functions are normalised, ordered and solve the difference equation | partial | Normalised, ordered, and solving the difference equation on uniform meshes; on a non-uniform mesh the returned vector is the solution times dz^2 (refuted). | SchrodProps: `C92_wavefunctions_partial`, `C92_no_level`, `C92_local_equation`, `C92_nonuniform_refuted` |
| C95 | The parabolic subband solver returns levels of the potential with the in-plane energy | partial | Proved against the Hamiltonian with in-plane energy; a negative quasiconfined always loses the highest level (refuted). | SchrodProps2: `C95_parabolic_levels`, `C95_all_levels_refuted` |
| C96 | guess_dimension answers only for an unambiguous unit | proved | Full statement. | UnitsProps: `C96_guess_dimension` |
| C93 | The discretised band profile follows the layers | proved | Full statement. | QwProps: `C93_band_profile` |
| C97 | Blurring smooths the band profile | partial | Falsified: no call returns a blurred profile; a window of three points or more raises TypeError. | QwProps: `C97_blur_refuted` |
| C98 | Well widths are varied independently and within bounds | partial | Proved for distinct layer objects; assemble_qw_structure puts the same well object into the structure n times, so the factors multiply (refuted). | QwProps: `C98_varied_wells_partial`, `C98_shared_well_refuted` |
| C99 | The energy filter keeps exactly the confined states | proved | Full statement. | QwProps2: `C99_energy_filter` |
| C100 | The confinement filter compares the probability in the wells with the threshold | partial | Proved for one well; with several wells the trapezium rule also covers the barriers between them (refuted). | QwProps2: `C100_confinement_partial`, `C100_two_wells_refuted` |
| C101 | A module is a series connection of its cells | proved | Full statement. | SpiceProps: `C101_series` |
| C102 | The dispersion of photocurrents has the given width and never exceeds the ideal value | partial | Bounds and formula proved; the draws are scaled by jscSigma twice, so the width is its square, and wide distributions exceed the ideal value (refuted). | SpiceProps: `C102_dispersion_partial`, `C102_exceeds_refuted`, `C102_width_refuted` |
| C103 | Quasi-3D netlists have unique element names | proved | Full statement. | SpiceProps2: `C103_names` |
| C104 | Quasi-3D results are the voltages SPICE reported for each node | partial | Proved for locations that fit the heading slice (see C64). | SpiceProps3: `C104_results_partial` |
| C105 | Resistors leading away from the contacts and the grid are dead ends | partial | Off-grid nodes proved; the metal node of a pixel without contact joins two contacts that touch only diagonally (refuted). | SpiceProps4: `C105_dead_ends_partial`, `C105_diagonal_refuted` |
| C106 | The Fortran IV run visits equally spaced biases up to its limit | proved | Full statement for the loop of RunIV. | PddProps: `C106_solver_voltages` |
| C107 | iv_pdd gives each requested voltage the current solved at that voltage | partial | Proved on grids of equal steps with a positive voltage; on other grids the current at the last voltages is that of the last multiple of the first step (refuted). | PddProps3: `C107_currents_partial`, `C107_uneven_grid_refuted` |
| C108 | The forward bias handed to the solver is limited by the band gap | partial | The range is never enlarged and forward bias is limited by the gap plus three thermal voltages; it does exceed the gap (refuted). | PddProps3: `C108_limits_partial`, `C108_beyond_gap_refuted` |
| C109 | The PDD options are in force when the device is solved | partial | Mesh and recombination options proved; the reset that follows restores the default convergence parameters (refuted). | PddProps2: `C109_options_partial`, `C109_convergence_ignored`, `C109_convergence_refuted` |
| C110 | Every layer reaches the PDD solver with its own parameters | proved | Full statement for every history of earlier calls. | PddProps2: `C110_layers` |
| C111 | The dark current is recombination plus diffusion plus shunt | partial | Diffusion equation up to 200 diffusion lengths, sum, mirror symmetry and sign proved; the lifetimes pair the electrons' diffusion length with the holes' diffusion coefficient and vice versa (refuted). | DepletionProps4: `C111_diffusion_equation_partial`, `C111_dark_current_partial`, `C111_mirror`, `C111_lifetimes_refuted`, `C111_recombination_sign` |
| C84 | Partly incoherent structures conserve energy | partial | Energy proved when the inner incoherent layers do not absorb; net radiation and the sum over passes proved for absorbing ones too; a thin strongly absorbing incoherent layer transmits more than the incident light (refuted). | IncProps: `C84_energy_partial`, `C84_net_radiation`, `C84_slab`, `C84_absorbing_refuted`, `C84_grazing` |
| C112 | The profile in an incoherent layer contains the light absorbed there | proved | Proved; the depths asked for need not reach the end of the layer, in which case the whole absorbed light is put into them. | IncProps: `C112_profile` |
| C113 | A sweep that does not converge at any voltage says so | partial | Falsified: the exception is built but not raised; an UnboundLocalError follows. | SesameProps: `C113_no_solution`, `C113_refuted` |
| C114 | The junction depth is the interface where the doping changes sign | partial | Proved for constant doping; profiles are evaluated at the depth in the junction instead of that in the layer (refuted). | SesameProps2: `C114_partial`, `C114_refuted` |
| C115 | Every sweep of Sesame starts near zero and keeps its sign | proved | Full statement. | SesameProps: `C115_sweep_order` |
| C116 | Sesame gets the net doping | partial | Proved when one of the densities is zero; the minority dopant of a compensated layer is ignored (refuted). | SesameProps2: `C116_partial`, `C116_refuted` |
| C117 | Surface recombination velocities reach the right surface and carrier | proved | Full statement. | SesameProps2: `C117_srv` |
| C118 | Material data for Sesame are complete and consistent | proved | Full statement. | SesameProps2: `C118_lifetime`, `C118_material`; SesameProps4: `C118_complete` |
| C119 | Quantum efficiencies of Sesame | proved | Full statement for the values at the wavelengths. | SesameProps2: `C119_qe` |
| C120 | Alloy spectra at tabulated compositions are the tabulated ones and wavelengths keep their order | partial | Tabulated compositions proved; between them proved when the critical points have the same order in both compositions; the shipped GaAsP table has two points in opposite order and the order of wavelengths is lost (refuted). | CritProps: `C120_position`, `C120_order`, `C120_points`, `C120_identity`, `C120_spectrum`, `C120_between_partial`, `C120_refuted` |
| C121 | Quasi-3D networks have the elements of the cell | partial | Proved for all elements; tunnel junctions proved when one lies between any two junctions; otherwise they are placed by counting (refuted). Error cases complete (C121_errors). | Quasi3DProps: `C121_elements`, `C121_tunnels`, `C121_tunnel_refuted`, `C121_errors`, `C121_metal` |
| C122 | Aligned structures have the band edges of their materials | proved | Full statement. | QwProps3: `C122_aligned`, `C122_again` |
| C123 | The mesh of the potentials resolves every layer | proved | Full statement. | QwProps3: `C123_mesh` |
| C124 | Scaling the quasi-3D network does not change its solutions | partial | Proved at the semiconductor nodes; the 1e-16 Ohm resistances of bus bars and of the external connection are not scaled (refuted at the metal nodes). | Quasi3DProps: `C124_scaling_partial`, `C124_bus_refuted` |
| C125 | Materials need their composition and keep the attributes they are given | proved | Full statement. | MaterialProps2: `C125_instance`, `C125_parameter` |
| C126 | Derived attributes of materials are consistent | partial | Alignment, mass action and temperature proved; tabulated values of alloys are never used because they are asked for without composition and the refusal is taken for a missing entry (refuted). | MaterialProps2: `C126_affinity`, `C126_offsets`, `C126_mass_action`, `C126_temperature`, `C126_power`, `C126_tabulated`, `C126_alloy`, `C126_alloy_refuted` |
| C127 | The drift-diffusion module reports the current that flows | partial | Uniform current, terminal current for both polarities and balance proved; with equal doping at the last node the surface currents are left out (refuted). | DDProps: `C127_uniform`, `C127_terminal_partial`, `C127_balance`, `C127_terminal_refuted` |
| C128 | Mass action and equilibrium in the drift-diffusion module | proved | Full statement. | DDProps: `C128_mass_action`, `C128_direction`, `C128_equilibrium`, `C128_no_current` |
| C129 | Fluxes of the drift-diffusion module are exact for linear potentials | partial | Proved for holes; for electrons proved where the mobility is the same at both nodes, otherwise off by the ratio of the mobilities (refuted: mobility of the left with the density of the right node). | DDProps2: `C129_holes`, `C129_electrons_partial`, `C129_electrons_refuted` |
| C130 | Starting potentials of the drift-diffusion module | proved | Full statement. | DDProps2: `C130_init`, `C130_neutral` |
| C131 | The Jacobian is the derivative of the residuals | partial | Rows of Poisson's equation exact; continuity rows exact without recombination and light; with recombination the entries carry a weight that the residual does not have (refuted). | DDProps3: `C131_poisson`, `C131_continuity_partial`, `C131_continuity_refuted`, `C131_rates` |
| C132 | Corrections of the potentials are limited by the clamp | partial | Common fraction and the limit for the entries 1..3M-1 proved; the last entries are not looked at, and corrections below the clamp are accepted unseen (refuted). | DDProps2: `C132_clamp_partial`, `C132_clamp_refuted`, `C132_decrease_refuted` |
| C133 | Generation conserves photons | proved | Full statement. | DDProps2: `C133_generation`, `C133_ramp` |
| C134 | Quantum efficiencies account for every carrier at every wavelength | partial | Proved for all wavelengths but the last, which is never computed and keeps the value of an earlier run (refuted for every run). | DDProps2: `C134_balance_partial`, `C134_last_refuted` |
| C135 | The banded solver returns the solution of the linear system | proved | Full statement: a vanishing pivot is shown to contradict regularity. | BandProps: `C135_solve`, `C135_unique` |
| C136 | The correction of the drift-diffusion module is the Newton step | partial | Linearised equations, Poisson's equation and the surface potentials proved without restriction; rates and descent of the continuity equations for devices without recombination and light whose elements are all outside the series of Z (the Jacobian is not exact otherwise, C131). | NewtonProps: `C136_newton`, `C136_poisson`, `C136_surfaces`, `C136_continuity_partial`, `C136_descent_partial` |
| C137 | The nonlinear solver ends and says why | partial | Termination and the meaning of the codes proved; a search that stalls at a large residual is reported as converged and convergence in the last iteration as failure (refuted). | NewtonProps: `C137_ends`, `C137_first`, `C137_codes_refuted` |
| C138 | The mesh of the drift-diffusion module resolves every interface | partial | Proved for fine < coarse; for coarse <= fine, the last element of a layer thicker than the coarse size is twice as long as the others and above the coarse size, for every such layer (refuted). | DDMeshProps: `C138_mesh_partial`, `C138_mesh_refuted`, `C138_uniform` |
| C139 | Every node of the drift-diffusion module has the data of the layer that contains it | proved | Full statement; the second part for fine < coarse and layers thicker than 0.15 nm. | DDMeshProps: `C139_layer`, `C139_changes` |
| C140 | Radiative coupling conserves photons | proved | Full statement, for at least two angles. | RadProps: `C140_balance`, `C140_blocked` |
| C141 | Operating points with radiative coupling | partial | Node equations, loop, uniqueness and gain proved given that scipy's root finder finds a zero (parameter). The last clause is false: the coupling term lacks the -1, every operating point in the dark at zero voltage delivers current (dark_current, refuted). Tunnel junctions are left out of the sum of voltages with a warning. | RadProps: `C141_nodes`, `C141_unique`, `C141_gain`, `C141_dark_current`, `C141_loop`, `C141_dark_refuted` |
| C142 | The atmosphere of SPCTRAL2 only attenuates | partial | Proved for the rural, maritime and tropospheric models (passive_partial) and for all amounts (clearer). The urban model raises UnboundLocalError because the branch tests for rural twice, own coefficients never pass the assertion (models_refuted). | Spectral2Props: `C142_passive_partial`, `C142_models_refuted`, `C142_clearer` |
| C143 | The sun of SPCTRAL2 | partial | Height proved from one degree off the zenith to the horizon; below it the air mass falls again, so that just before 93.885 degrees more light arrives than at any place with the sun up (horizon_refuted). The date lags by one day (day_refuted), the sign of the longitude is west-positive while the default object is east-positive (east_refuted), and 1.6e-19 is used for the charge (joules_refuted). | Spectral2Props: `C143_height`, `C143_horizon_refuted`, `C143_day_partial`, `C143_calendar`, `C143_day_refuted`, `C143_east_refuted`, `C143_joules_partial`, `C143_joules_refuted` |
| C144 | Sets of SOPRA files are interpolated between their own data | partial | Order, nodes, interpolation and ends proved for both kinds of sets. Temperatures are checked with 273.15 but interpolated with 273.19: only the lowest file is returned at its own temperature (temperature_refuted). | SopraProps: `C144_order`, `C144_file`, `C144_between`, `C144_outside`; SopraProps2: `C144_temperature_partial`, `C144_temperature_refuted` |
| C145 | Materials of the SOPRA library have the optical constants of the library | partial | Proved where the files are found under the name used. An alloy written in other capitals than in compounds.txt loses its composition and becomes vacuum silently (case_refuted); SiPOLY is listed with Poly but its folder is called X, so n ends the interpreter (folder_refuted); the files of ZnSeTe carry tenths instead of per cent (tenths_refuted). | SopraProps2: `C145_plain`, `C145_alloy`, `C145_absorption`, `C145_alpha`, `C145_case_refuted`, `C145_folder_refuted`, `C145_tenths_refuted` |
| C146 | The radiative recombination coefficient uses the refractive index at the photon energy | partial | False: n is evaluated at the energy in J as if it were a wavelength in m, which gives the first tabulated index (first_row_partial says exactly what is computed; refuted with a factor of four). | SopraProps2: `C146_first_row_partial`, `C146_radiative_refuted` |
| C147 | The TMM solver accounts for all light once | partial | Proved for cells of different elements of the types Layer, Junction and TunnelJunction, coherent (balance_partial) and with transparent incoherent layers (incoherent_partial; absorbing ones can break the balance, C84), each with unpolarised light; the switch to the incoherent treatment without restriction (thick). One object at two places of the cell keeps only the last absorption, the rest is reported as transmitted (reuse_refuted); a cell with an element of any other type, e.g. a subclass, fails (foreign). | RatProps: `C147_balance_partial`, `C147_thick`, `C147_incoherent_partial`; RatProps4: `C147_foreign`, `C147_reuse_refuted` |
| C148 | The generation profile is the interpolated absorption profile | partial | Proved for depths more than a thousandth of a nanometre apart. Beyond the last depth the profile is continued in a straight line and can be negative (beyond_refuted); a grid with a single depth inside the structure fails (single_refuted). | RatProps3: `C148_between`, `C148_nonneg`, `C148_integral`, `C148_element`, `C148_single_refuted`, `C148_beyond_refuted` |
| C149 | The absorption profile integrates to the absorbed light | partial | Coherent calculation, for layers whose phase is not capped (imaginary part at most 100) and media as in C42; stacks with incoherent layers are C150. | RatProps2: `C149_layer_partial`, `C149_total_partial` |
| C150 | The absorption profile of a partly incoherent stack integrates to the absorbed light | partial | Coherent layers between transparent incoherent ones: the profile is within 1e-13 per nm of a density with the right integral, for s, p and unpolarised light (coherent_partial, stack_partial), where every layer in front has a sample - the fractions of light are indexed by the number of sampled layers in front. Incoherent layers: an exponential that integrates to the absorption up to the deepest sample, hence to more over the layer (incoherent_partial). The threshold is compared with the light reaching the layer, not with the light absorbed (threshold_refuted); the value at one position depends on the others (positions_refuted). | IncProfileProps: `C150_coherent_partial`, `C150_stack_partial`, `C150_incoherent_partial`, `C150_threshold_refuted`, `C150_positions_refuted` |
| C151 | The dispersion formulas of refractiveindex.info | partial | Formulas 1, 2, 3, 5, 6, 7, 8, 9 for any coefficients; formula 4 with at most one power (resonances_partial). With two powers the second pair is read one place too early (resonances_refuted). | RiiProps: `C151_sellmeier`, `C151_powers`, `C151_gases`, `C151_herzberger`, `C151_retro`, `C151_exotic`, `C151_resonances_partial`, `C151_resonances_refuted`, `C151_range` |
| C152 | The refractiveindex.info database returns the data of the page asked for | partial | Numbers are real. Proved for tables of n and k and for formulas alone. A formula followed by a table of k is stored at the number of rows of the table, not the number of points asked for (points_refuted). | RiiProps: `C152_independent`, `C152_rows`, `C152_formula`, `C152_points_refuted`, `C152_missing`, `C152_nodes` |
| C153 | download_db leaves a usable database | partial | Confirmed download and declined download proved. download_db() as the manual gives it downloads nothing when there is no file (first_use_refuted); a failed download has already replaced the tables (failed_refuted). | RiiProps: `C153_download`, `C153_replace`, `C153_keep`, `C153_then_nodes`, `C153_first_use_refuted`, `C153_failed_refuted`, `C153_folder` |
| C154 | Models of the dielectric constant are sums of their oscillators and absorb | partial | Poles exactly at the energy are outside the model. With at least one oscillator, and segments only at single wavelengths (sum_partial, passive_partial): without an oscillator the result has no longer the shape of the wavelengths and segments refuse arrays (shape_refuted); with poles only a negative dielectric constant gives nan (poles_refuted). | DielProps: `C154_pole`, `C154_lorentz`, `C154_drude`, `C154_gauss`, `C154_sum_partial`, `C154_order`, `C154_shape_refuted`, `C154_units`, `C154_passive_partial`, `C154_poles_refuted`, `C154_cauchy`, `C154_construct`, `C154_edit`, `C154_add` |
| C155 | The real part of the dielectric constant follows from the imaginary part | partial | The quadrature is the exact integral. Proved between 0.01 and 4.99 eV. The integral stops at 5 eV, and above that energy it does not exist (above_refuted); the segment oscillator integrates a constant (segments_refuted). | DielProps: `C155_linear`, `C155_sign`, `C155_constant`, `C155_gauss_partial`, `C155_above_refuted`, `C155_segments_refuted` |
| C156 | External optics share out the light once | partial | At one wavelength. Balance and partition proved. Shading is not taken off the elements, which generate more than the cell is said to absorb (shading_refuted); a function as reflectance, as documented, is a TypeError (function_refuted). | RcwaProps: `C156_balance`, `C156_missing`, `C156_function_refuted`, `C156_element`, `C156_partition`, `C156_shading_refuted` |
| C157 | The RCWA optics conserve energy | partial | S4 is an arbitrary function of what it has been told, the exact condition on it is in the statements. Proved for 's', 'p', 'u' and pairs of amplitudes; where a layer gives power back the sum is greater than one by that amount (balance). Any other word for unpolarised light gives sums over both polarisations per layer in place of A (word_refuted). The search for the layer at a depth is from the tmm package, outside the repository. | RcwaProps: `C157_single`, `C157_mean`, `C157_balance`, `C157_word_refuted`, `C157_cell`, `C157_profile` |
| C158 | The S4 options of a call are those given to the call | partial | The dictionary of defaults is updated in place: S4 gets the last assignment of the whole session (options). Holds if no earlier call has set an option (fresh_partial), else not (leak_refuted). | RcwaProps: `C158_options`, `C158_fresh_partial`, `C158_leak_refuted`, `C158_unknown` |
| C159 | S4 is told the structure as it is | partial | Layers without restriction; shapes for materials that print differently (shapes_partial). Materials that differ in temperature only print the same and share constants (temperature_refuted); a type in any other spelling is dropped (kind_refuted). | RcwaProps: `C159_shapes_partial`, `C159_constants`, `C159_layers`, `C159_temperature_refuted`, `C159_kind_refuted` |
| C160 | The numbers that SPICE prints come back as they stand | partial | Tables proved. Rows beginning with a blank or a sign are not seen at all and an empty array is returned (sign_refuted). For modules, points are proved if a blank or sign comes before the first digit (module_partial); a voltage printed in the first column is dropped (column_refuted), and a heading with a digit in second place is an error (heading_refuted). float is an arbitrary partial function. | CircuitProps: `C160_table`, `C160_ragged`, `C160_sign_refuted`, `C160_module_partial`, `C160_column_refuted`, `C160_heading_refuted` |
| C161 | Circuits are solved by the program that was asked for | partial | An engine that is given is used, and none is refused. The default is frozen when the module is imported (default): a later change of the configuration has no effect (config_refuted). The two old names pass a class for a path and always raise TypeError (legacy_refuted). | CircuitProps: `C161_engine`, `C161_default`, `C161_missing`, `C161_legacy_refuted`, `C161_config_refuted` |
| C162 | Differential evolution returns the best individual and its history | partial | The algorithm (yabox, outside the repository) is an arbitrary sequence of steps with its arrays. Result and both lists of numbers proved without restriction. The list of individuals holds views of the live array: right if rows are never written again (individuals_partial), else not (individuals_refuted). | EvolProps: `C162_result`, `C162_exhausted`, `C162_empty`, `C162_convergence`, `C162_individuals_partial`, `C162_individuals_refuted` |
| C163 | Parallel and sequential evolution agree | partial | Same values proved for the first run. A second run with processes raises ValueError, the pool has been terminated (again_refuted); without processes it can be repeated (again_partial). | EvolProps: `C163_parallel`, `C163_again_partial`, `C163_again_refuted` |
| C94 | Quantum well absorption is a staircase with excitons below its edges | partial | Edges, weights, overlap, staircase, excitons, polarisation and emission proved; the area of the Gaussian line is not. The parameter called hwhm is the full width of the Lorentzian and twice the standard deviation of the Gaussian (hwhm_refuted); espace has a default that is a TypeError (default_refuted); calc_emission does not use the voltage (voltage_refuted). The effective masses are those in the middle of the arrays (masses). | QwAbsProps: `C94_edge`, `C94_weights`, `C94_overlap`, `C94_staircase`, `C94_lorentz`, `C94_hwhm_refuted`, `C94_exciton_args`, `C94_binding`, `C94_dimension`, `C94_masses`, `C94_total`, `C94_default_refuted`, `C94_emission`, `C94_voltage_refuted`, `C94_hydrogen`, `C94_gauss`, `C94_excitons`, `C94_spectrum` |
| C164 | k points are inside the first Brillouin zone | proved | Arithmetic in R. Lattice constant positive, vector not zero. | CrystalProps: `C164_zone`, `C164_line`, `C164_direction`, `C164_critical` |
| C165 | Walks through the Brillouin zone | partial | For at least two steps and a way of positive length. With one step every position is nan (single_refuted). | CrystalProps: `C165_walk`, `C165_single_refuted`, `C165_names` |
| C166 | A quantum well unit knows its barriers, wells and interlayers | partial | Refusals proved. Roles if the objects of the ends do not occur inside (roles_partial): with one barrier object everywhere the barriers become interlayers (alias_refuted). A unit that is refused has changed the layers nevertheless (effect_refuted). | QwUnitProps: `C166_roles_partial`, `C166_refused`, `C166_alias_refuted`, `C166_effect_refuted` |
| C167 | Averages over layers are those of the layers | partial | Bounds, existence and probabilities proved. The last interval of every layer is left out of the slice: neither is the average that of the layer (mean_refuted) nor do the probabilities add up to one for a state inside the unit (lost_refuted). | QwUnitProps: `C167_average`, `C167_defined`, `C167_probability`, `C167_mean_refuted`, `C167_lost_refuted` |
| C168 | Confinement opens the gap | partial | For distinct layers and materials (edges_partial, masses_partial); kp8x8_bulk and the strain shifts are arbitrary functions. Outside the kp8x8_bulk mode the shift of the valence band has the wrong sign (strain_refuted) and solving again multiplies the masses by the electron mass once more (again_refuted). | QwUnitProps2: `C168_edges_partial`, `C168_masses_partial`, `C168_again_refuted`, `C168_strain_refuted` |
| C169 | Density of states of the layers of a unit | partial | For distinct materials (states_partial); erfc is used only through erfc 0 = 1 and its range. A material shared by layers gets the values of the last one (shared_refuted); barriers get also what leaks into them, contrary to the docstring (barrier_refuted). | QwUnitProps3: `C169_states_partial`, `C169_sum`, `C169_shared_refuted`, `C169_barrier_refuted`, `C169_levels` |
| C170 | Absorption of the layers of a unit | partial | For distinct materials: position of the edge and every value (edge, absorption_partial). Barriers are cut at the edge as well and wells get only the excess over the edge, contrary to the docstring. The absorption of the unit is that of its last layer (total_refuted); use_Adachi has no effect, as the Adachi function is handed a string and raises inside the except (adachi_refuted); with energies as parameters the wavelengths are 10^18 times too long (units_refuted). | QwUnitProps4: `C170_edge`, `C170_absorption_partial`, `C170_total_refuted`, `C170_adachi_refuted`, `C170_units_refuted` |
| C171 | Effective layers for the drift-diffusion solver | partial | For distinct materials and a rising grid of wavelengths (effective_partial); nan values are not followed. Without the keyword repeat the result is lost in an AttributeError (repeat_refuted); without absorption there is no result (absorption_refuted); a second call counts the confinement twice (twice_refuted). | QwUnitProps4: `C171_effective_partial`, `C171_repeat_refuted`, `C171_absorption_refuted`, `C171_twice_refuted` |
| C172 | Ellipsometric parameters come from the reflection amplitudes | partial | tan(psi) exp(i Delta) is the ratio or its conjugate (entries_partial): folding Delta into [180, 360] loses the sign of the phase, so two films of different thickness with conjugate ratios cannot be told apart (sign_refuted). Where rs = 0 the model has one undefined value for both numbers. | EllProps: `C172_entries_partial`, `C172_flag`, `C172_normal`; EllProps2: `C172_sign_refuted` |
| C173 | Detailed-balance curve with Planck's law | partial | For absorptances that vanish below the gap and grids of photon energies without the voltages (curve_partial): at such an energy the current is not a number. An absorptance with a tail below the gap emits less than nothing and the dark current falls with the voltage (tail_refuted). j01 is not set in this mode. | DbPlanckProps: `C173_curve_partial`, `C173_boltzmann`, `C173_default`, `C173_tail_refuted` |
| C174 | The SMARTS input file has the cards of its options | partial | Proved. The selectors are python list indices: a negative one is taken from the end instead of being refused (negative_refuted). Card 10d needs IALBDG = 1, while its counterpart 10a needs IALBDX = -1, so that a ground albedo given with the flag -1 is not written (albedo_refuted). The statement and the tables follow the code in both. | SmartsProps2: `C174_file`, `C174_missing`, `C174_flags`, `C174_unused`, `C174_negative_refuted`, `C174_albedo_refuted` |
| C175 | Calculated solar spectra use the options given | partial | The program and np.loadtxt are arbitrary functions; the target directory is not modelled. The spectrum for all outputs but one (spectrum_partial): Extraterrestial and True direct have the same column (outputs_refuted). A missing option is reported as an unknown output (missing). | SmartsProps3: `C175_merge`, `C175_options`, `C175_update`, `C175_spectrum_partial`, `C175_unknown`, `C175_missing`, `C175_fails`, `C175_rows`, `C175_spectral2`, `C175_outputs_refuted` |
| C176 | Singletons have one instance | partial | Instances proved for all programs whose constructors and methods do not use singletons themselves. The namespace for distinct functions (namespace_partial): a function under two names is given away under the first only (alias_refuted). | SingletonProps: `C176_one`, `C176_first`, `C176_single`, `C176_redirect`, `C176_namespace_partial`, `C176_tagged_partial`, `C176_alias_refuted` |
| C177 | Texts of an alloy name its fraction | partial | Proved for names that have the element once, which are all in the databases but one (database): SiPOLY has no element Poly and the same texts for every fraction (fraction_refuted). A name with the element twice has no text (twice_refuted). | MatTextProps: `C177_alloy`, `C177_zero`, `C177_absent`, `C177_simple`, `C177_fraction_refuted`, `C177_twice_refuted`, `C177_database` |
| C178 | Adachi's optical constants belong to their wavelengths | partial | The relation of n and k to the dielectric constant is that of two complex roots of which the real parts are returned, as the real part of the dielectric constant has an imaginary part from the damped logarithm. With wavelengths the energies returned are in the opposite order of n, k and alpha (wavelengths_partial, energy_refuted). B1, B11, Gamma and the lattice constant are needed but have no effect (unused); an alloy of fraction zero is looked up without it (zero_refuted). | AdachiProps: `C178_energies`, `C178_wavelengths_partial`, `C178_transparent`, `C178_absorbs`, `C178_parameters`, `C178_unused`, `C178_zero_refuted`, `C178_energy_refuted` |
| C179 | Quantum efficiency of stacks of junctions after Nelson | partial | Currents, regions, widths, dark currents, light and conservation proved, for depleted regions inside their layers. Energies at which the absorption length is a diffusion length are left out of the arrays of a junction (junction_partial, dropped_refuted). The passive loss does not allow for reflection, shading and junctions (passive_refuted); the permittivity of the material is multiplied by that of the vacuum twice (permittivity_refuted); from the built-in voltage on the current is not a number (forward_refuted). The printing of parameters is not modelled. | OldQeProps: `C179_front`, `C179_rear`, `C179_regions`, `C179_depletion`, `C179_widths`; OldQeProps2: `C179_parameters`, `C179_doping`, `C179_recombination`, `C179_dark`, `C179_junction_partial`, `C179_current`, `C179_light`, `C179_conservation`; OldQeProps3: `C179_passive_refuted`, `C179_permittivity_refuted`, `C179_forward_refuted`, `C179_dropped_refuted`; OldQeProps4: `C179_incoming`, `C179_intrinsic` |
| C180 | Bands of quantum wells are the levels at every wave vector | partial | Bands, characters, confinement, order of the upper levels and results at k = 0 proved for every eigenvalue solver. Lower levels stay in the order of the solver (lower_order_refuted); both components of a mixed level are normalised to one (total_refuted); heavy levels below their own barrier count as confined (barrier_refuted); small second components are compared with the first ones in the upper block (threshold_refuted); when all levels asked for are confined, the last electron band is infinite except at k = 0 (top_band_refuted); schrodinger fails if one kind of carrier has no level (no_light_hole_refuted). | BandQwProps: `C180_components`, `C180_character`, `C180_confined`, `C180_upper_order`; BandQwProps2: `C180_electron_bands`, `C180_hole_bands`, `C180_wave_vectors`, `C180_top_band_refuted`, `C180_edges`, `C180_field`; BandQwProps3: `C180_lower_order_refuted`, `C180_total_refuted`, `C180_barrier_refuted`, `C180_threshold_refuted`, `C180_no_light_hole_refuted`; BandQwProps4: `C180_electron_zero` |
| C181 | Bulk bands and effective masses belong together | partial | Bands, parabolic fits, first guess, normal equation, averages, point masses and the whole calculation for decoupled materials proved for every eigenvalue solver and every fit that minimises the sum of squares. The weights are passed as standard deviations and so favour the points far from the centre (weights_refuted); kx and ky of kp_bands have no effect (wave_vector_refuted). Plots are not modelled. | BulkKpProps: `C181_curve`, `C181_parabolas`, `C181_guess`, `C181_normal`, `C181_weights_refuted`; BulkKpProps2: `C181_bands`, `C181_kp_bands`, `C181_wave_vector_refuted`, `C181_point_masses`, `C181_direction`, `C181_in_plane`, `C181_average`, `C181_bulk`; BulkKpProps3: `C181_isotropic` |
| C182 | New materials are added to the database | partial | Proved: data, parameters, frame, refusal, question and the next session, for a configuration whose custom source is the file of custom parameters. A name that differs in case takes the data of another material without a question (case_refuted); a material used before keeps its old data in the session (used_refuted); an alloy looks for n and k where they are not (alloy_refuted); a parameter file that is not there is not noticed (missing_file_refuted); overwriting keeps parameters that the new file does not have (overwrite_refuted); the n data are replaced although the k file is missing (failed_refuted). Folders are not modelled as files. | NewMatProps: `C182_created`, `C182_parameters`, `C182_frame`, `C182_declined`, `C182_question`; NewMatProps2: `C182_restart`, `C182_restart_data`, `C182_case_refuted`, `C182_used_refuted`, `C182_alloy_refuted`, `C182_missing_file_refuted`, `C182_overwrite_refuted`, `C182_failed_refuted` |
| C183 | Ellipsometry files are read point by point | partial | Loading (load) and appending of points (append) proved for all files of well-formed lines. An empty line or an angle with depolarisations only makes the file unreadable (blank, only_dpol). Depolarisations keep the wavelengths of the file (dpol_units_refuted) and get permuted entries when appended (dpol_mixed_refuted); new angles are not in the list of angles (angles_refuted). The order of equal wavelengths is that of a stable sort. | EllDataProps: `C183_load`, `C183_only_dpol`, `C183_blank`, `C183_append`, `C183_dpol_units_refuted`, `C183_angles_refuted`, `C183_dpol_mixed_refuted` |
| C184 | Fits to ellipsometry data vary the variables asked for | partial | Variables, their order, the error of stacks with fresh caches, exact fits, fits of widths, the end of a fit and correlations proved. Optical constants are cached by wavelengths, so that parameters of a model have no effect on the error after its first evaluation (frozen, stale_refuted); psi is weighted with its own value (psi_error_refuted); names that do not exist can be set (unknown_refuted) and names outside a list are read letter by letter (letters_refuted); few points are a division by zero (zero_division). calculate_ellipsometry is a parameter here (C172 has it); plots and mixed layers are not modelled; the cache is unbounded. | EllFitProps: `C184_update`, `C184_same`, `C184_order`, `C184_short`, `C184_mse`, `C184_mse_frame`, `C184_zero`, `C184_widths`, `C184_frozen`, `C184_fit`, `C184_correlations`; EllFitProps2: `C184_stale_refuted`, `C184_psi_error_refuted`, `C184_unknown_refuted`, `C184_letters_refuted`, `C184_zero_division`, `C184_set` |
| C185 | Sums of oscillators of Custom_CPPB follow their parameters | partial | Parameters, broadening, closed forms of all seven oscillators, sums, optical constants, repeated evaluation with dictionaries of their own and frame conditions proved. Arguments of an oscillator are written into the dictionary of its material: refuted for shared dictionaries. The arguments documented for E_ID and E0_Exciton raise KeyError, parameters by arguments only raise TypeError for four functions called directly, an unterminated section takes in the next: refuted. | CppbProps: `C185_params`, `C185_not_found`, `C185_selected`, `C185_sections_refuted`; CppbProps2: `C185_broad`, `C185_lorentz`, `C185_e2`, `C185_exciton`, `C185_e0`, `C185_e1`, `C185_eid`; CppbProps3: `C185_total`, `C185_optical`, `C185_sellmeier`, `C185_sellmeier_odd`, `C185_again`, `C185_frame`, `C185_leak_refuted`, `C185_documented_refuted`, `C185_unknown` |
| C186 | Photocurrents and quantum efficiencies of the depletion approximation count the carriers of the junction | partial | Regions, bounds of collection, efficiencies, superposition, agreement of currents and efficiencies, and parameters proved (mode green, the quadrature is the integral). One slice in 1001 of the depleted region is never counted, so a fully depleted junction has an internal efficiency of 1000/1001: refuted. Photocurrents use the depletion widths at the voltage nearest to zero of those asked for, so currents depend on the list: refuted. The intrinsic density of the p region is never used: refuted. | DepLightProps: `C186_regions`, `C186_collected`, `C186_efficiencies`, `C186_eqe`, `C186_depleted`; DepLightProps2: `C186_superposition`, `C186_reference`, `C186_depleted_refuted`, `C186_voltages_refuted`, `C186_parameters`, `C186_intrinsic_refuted`, `C186_sides` |
| C187 | The absorption of a junction on its own obeys Beer and Lambert | partial | The profile at all depths but the last, its integral, the transmission and the function of wavelengths proved. The last depth asked for always gets zero (last_refuted); the transmission is not scaled by the light that enters, so the balance holds exactly if all light enters (balance, balance_refuted); the transmission of a junction of kind DB is its absorption (flat_trans_refuted). | JAbsProps: `C187_profile`, `C187_absorbed`, `C187_last_refuted`, `C187_balance`, `C187_balance_refuted`, `C187_flat`, `C187_flat_trans_refuted` |
| C188 | Accessors of the configuration and their deprecated forms agree | partial | Setting, reading and listing proved for paths below the folder of the package or without its name in them; the deprecated functions equal their replacements except add_source, set_location_of_spice, set_location_of_smarts and check_user_config, which call methods that do not exist and raise AttributeError for all arguments (deprecated_refuted). Reading through a section leaves SOLCORE_ROOT in the text (section_refuted). Percent interpolation and the order of options are not modelled; printing is modelled as no change. | ConfAccProps: `C188_set_get`, `C188_read`, `C188_deprecated_partial`, `C188_deprecated_refuted`, `C188_section_refuted` |
| C189 | The picker of critical points keeps one point per curve and saves what was confirmed | partial | Invariant of the machine, snapping, undo, saved file and list of files proved for all sequences of events. A complete set that is not confirmed before Escape is lost (unfinished_refuted); the compositions are sorted as texts (order_refuted); the class only works when its module is run as a program, since gather_files reads a global variable (library_refuted). Drawing, the loop of the window and the text of the file are not modelled. | PickProps: `C189_machine`, `C189_on_curve`, `C189_undo`, `C189_saved`, `C189_unfinished_refuted`, `C189_files`, `C189_library_refuted`, `C189_order_refuted` |
| C190 | The earlier manager of sources keeps its database in step with its sources | partial | Names, read() and removal proved for all histories, the database for histories of new names, removals with re-reading and full readings. Data of a replaced source and of one removed without re-reading stay, and reading one source again puts it before later ones (replaced_refuted, kept_refuted, again_refuted). Files are well formed and do not change. | OldSourcesProps: `C190_sources`, `C190_read`, `C190_removed`, `C190_careful`, `C190_replaced_refuted`, `C190_kept_refuted`, `C190_again_refuted`, `C190_read_name` |
| C191 | The data of alloys are loaded as the picker saved them | partial | The round trip is proved for the file renamed to critical_points.txt, with the printing and reading of floats as hypotheses (reading inverts printing, no spaces). Under the name the picker uses nothing is loaded and nothing raised (name_refuted); a dash before the number or digits in the name of the material are taken for the composition (guess_refuted); compositions equal as numbers but not as texts overwrite each other (same_refuted). | LoadCpProps: `C191_guess`, `C191_guess_refuted`, `C191_roundtrip`, `C191_name_refuted`, `C191_same_refuted` |
| C192 | Data drawn for quantum wells are what the calculation gave | partial | Line shape, masses, densities of both kinds, wavefunctions, band diagrams and options proved. The argument hwhm of the line is its full width (width_refuted); thresholds of one half or more can leave nothing of a function and raise (trim_refuted); split_schrodinger_graph ignores the options given but stores them in the defaults of the module, where all later graphs find them (options_refuted). Constant functions (division by zero) raise in the model where numpy warns; drawing is not modelled. | GraphQmProps: `C192_line`, `C192_width_refuted`, `C192_mass`, `C192_electrons`, `C192_holes`, `C192_density_nonneg`; GraphQmProps2: `C192_wave`, `C192_waves`, `C192_trim_refuted`, `C192_bands`, `C192_options`, `C192_options_refuted` |
| C193 | Graphs show all data with their colours and labels | partial | Flattening, colours of plain data, legends of labelled data, table of colours and square axes proved. From Python 3.10 on collections.Iterable does not exist and no graph with data can be made (version_refuted). Data without colour behind data with colours share one (colours_refuted); unlabelled lines misplace entries of the legend (legend_refuted); the empty name is found on the blank line of the table and raises IndexError (blank_refuted). The name of a colour is compared as a text instead of as a regular expression; drawing by matplotlib is not modelled. | GraphProps: `C193_square`, `C193_flatten`, `C193_version_refuted`, `C193_colours_kept`, `C193_colours_differ`, `C193_colours_refuted`, `C193_legend`, `C193_legend_refuted`, `C193_colour`, `C193_unknown`, `C193_blank_refuted` |
| C194 | Searching and exporting the database of refractive indexes | partial | Searches, text files and csv files proved. An underscore or percent sign in the term is a wildcard even with exact (exact_refuted); a folder with .txt in its name makes the export fail (folder_refuted); csv files pair n and k by position if there are as many of both, even at different wavelengths (csv_refuted). What was written before an error is not shown; makedirs adds the folder alone. | NkFilesProps: `C194_search`, `C194_exact_refuted`, `C194_values`, `C194_txt`, `C194_missing`, `C194_folder_refuted`, `C194_same`, `C194_csv`, `C194_csv_single`, `C194_csv_missing`, `C194_csv_refuted` |
| C195 | Devices of the drift-diffusion solver turn back into structures | partial | Structures of devices, truncation at the gap for increasing wavelengths and the properties of the device proved. A missing role becomes the text None (role_refuted); with a gap beyond all wavelengths the last one loses its absorption (last_refuted), and for decreasing wavelengths the wrong side is removed (order_refuted); without data LoadAbsorption raises instead of using Adachi's model or zero (fallback_refuted); SolveQWproperties always ends in an exception, sys.exit at best (qw_refuted). Texts of numbers are taken to be read back as they were; materials made at the end of SolveQWproperties are not modelled. | ToStructProps: `C195_structure`, `C195_role_refuted`, `C195_gap`, `C195_other`, `C195_last_refuted`, `C195_order_refuted`, `C195_fallback_refuted`, `C195_qw_refuted`, `C195_qw_device` |
| C196 | Dynamic meshing keeps the device and the solution | partial | Order, ends, master nodes, values, removal and number of nodes proved. At a master node inside the device the number of parts is the ceiling of a division by zero, so that the mesh depends on the compiler (interface_refuted; all other theorems hold for every outcome); the last element is divided into 1/Growth parts without regard to the smallest size and the mesh can outgrow the arrays of 6001 nodes (size_refuted). Rounding is idealised. | DynMeshProps2: `C196_mesh`, `C196_values`, `C196_size`, `C196_size_refuted`, `C196_interface_refuted`; DynMeshProps3: `C196_number`, `C196_removed`; DynMeshProps4: `C196_device`, `C196_smoothing` |
| C197 | What the drift-diffusion module remembers between calls | partial | Velocities, light, flags and absorption proved for all sequences of calls. Dynamic is not reset, so that a mesh with a given number of points is adapted once a dynamic one was used (dynamic_refuted); three wavelengths are taken for none and replaced by the next table (absorption_refuted); RunIV after light at open circuit keeps a surface without recombination (surfaces_refuted). That the type of a boundary has no effect is C197_type. Blanks at the end of texts are left out, rounding is idealised. | DDStateProps: `C197_boundary`, `C197_type`, `C197_dynamic`, `C197_dynamic_refuted`, `C197_single`, `C197_light`, `C197_iqe_flux`, `C197_surfaces`, `C197_closed`, `C197_surfaces_refuted`, `C197_absorption`, `C197_absorption_refuted`, `C197_flux_linear` |
| C198 | Absorption of the layers of a quantum well | partial | Texts of alloys proved, and that names of up to four letters, such as all binaries, raise KeyError and longer names without parameters IndexError. The model of Adachi takes a material and not a text, so that it always fails: the absorption of data is used even if the model is asked for and is the only one there is (absorption, adachi_refuted). A parameter that comes before the element hides it (hidden_refuted). | QwTextProps: `C198_alloy`, `C198_short`, `C198_bare`, `C198_absorption`, `C198_adachi_refuted`, `C198_hidden_refuted` |

## 4. Trusted base

* Coq's kernel (8.16.1).
* The hand transcription of the Python (and Fortran) code into Gallina, checked by reading; every definition cites the lines it models.
* The idealisations of section 2 (real numbers for floats, specifications in place of numerical libraries).
* The axioms of the standard library that `Print Assumptions` lists. No other axiom occurs; in particular none of another library and none of our own. The constants below live in `ClassicalDedekindReals` (`sig_forall_dec`, `sig_not_dec`), `FunctionalExtensionality` (`functional_extensionality_dep`) and `Classical_Prop` (`classic`). Per theorem:

* **no axioms** ("Closed under the global context") (146 theorems): `C01_writes_durable_partial`, `C01_writes_durable_without_sections_refuted`, `C02_reset_partial`, `C02_reset_refuted`, `C03_crash_safe_partial`, `C03_crash_safe_refuted`, `C03_crash_silent_loss_refuted`, `C04_observers_track_partial`, `C04_observers_track_refuted`, `C05_restore_defaults_partial`, `C05_restore_source_partial`, `C05_version_change_partial`, `C05_new_section_refuted`, `C06_last_source_wins`, `C06_sources_follow`, `C07_remove_source_partial`, `C07_remove_source_refuted`, `C07_disable_source_refuted`, `C11_compound_units_parse`, `C16_duplicate_rejected`, `C16_isolated_and_excluded`, `C16_entries_never_disappear`, `C16_no_silent_replacement_partial`, `C16_registration_stores`, `C16_no_silent_replacement_refuted`, `C17_state_is_ordered_map`, `C17_method_names_shadow`, `C18_merge_last_wins`, `C19_labels_aligned`, `C19_list_methods_refuted`, `C23_material_string_partial`, `C23_material_string_refuted`, `C28_shapes_checked`, `C45_accepts`, `C45_partition`, `C45_stacks`, `C47_swap_meaning`, `C48_cache_partial`, `C48_cache_first`, `C59_citations_partial`, `C59_citations_refuted`, `C60_same`, `C60_sources_partial`, `C60_kind_partial`, `C60_distinct_partial`, `C60_stale_refuted`, `C60_sopra_refuted`, `C60_collision_refuted`, `C64_location_partial`, `C64_location_overflow`, `C64_location_refuted`, `C70_layer_count`, `C71_flags_partial`, `C71_flags_refuted`, `C86_only_existing`, `C96_guess_dimension`, `C143_calendar`, `C153_folder`, `C158_options`, `C158_fresh_partial`, `C158_unknown`, `C160_module_partial`, `C160_column_refuted`, `C160_heading_refuted`, `C162_empty`, `C174_file`, `C174_missing`, `C174_flags`, `C174_unused`, `C174_negative_refuted`, `C174_albedo_refuted`, `C175_merge`, `C175_options`, `C175_rows`, `C176_one`, `C176_first`, `C176_single`, `C176_redirect`, `C176_namespace_partial`, `C176_tagged_partial`, `C176_alias_refuted`, `C177_alloy`, `C177_zero`, `C177_absent`, `C177_simple`, `C177_fraction_refuted`, `C177_twice_refuted`, `C177_database`, `C182_created`, `C182_parameters`, `C182_frame`, `C182_declined`, `C182_question`, `C182_restart`, `C182_restart_data`, `C182_case_refuted`, `C182_used_refuted`, `C182_alloy_refuted`, `C182_missing_file_refuted`, `C182_overwrite_refuted`, `C182_failed_refuted`, `C184_update`, `C184_same`, `C184_order`, `C184_short`, `C184_set`, `C185_params`, `C185_not_found`, `C185_selected`, `C188_set_get`, `C188_read`, `C188_deprecated_partial`, `C188_deprecated_refuted`, `C188_section_refuted`, `C189_files`, `C189_library_refuted`, `C189_order_refuted`, `C190_sources`, `C190_read`, `C190_removed`, `C190_careful`, `C190_replaced_refuted`, `C190_kept_refuted`, `C190_again_refuted`, `C190_read_name`, `C191_guess`, `C191_guess_refuted`, `C192_options`, `C192_options_refuted`, `C193_flatten`, `C193_version_refuted`, `C193_legend`, `C193_legend_refuted`, `C194_search`, `C194_exact_refuted`, `C194_csv`, `C194_csv_single`, `C195_structure`, `C195_fallback_refuted`, `C197_boundary`, `C198_alloy`, `C198_short`, `C198_bare`, `C198_absorption`, `C198_adachi_refuted`, `C198_hidden_refuted`

* **sig_forall_dec** (23 theorems): `C09_lookup_precedence`, `C09_lookup_unique`, `C10_layered_lookup_terminates`, `C10_own_parent_refuted`, `C10_self_reference_diverges`, `C21_junction_bookkeeping`, `C21_negative_index`, `C126_alloy`, `C160_table`, `C160_ragged`, `C160_sign_refuted`, `C161_engine`, `C161_default`, `C161_missing`, `C161_legacy_refuted`, `C161_config_refuted`, `C94_masses`, `C166_refused`, `C166_alias_refuted`, `C166_effect_refuted`, `C184_unknown_refuted`, `C184_letters_refuted`, `C195_role_refuted`

* **sig_forall_dec, functional_extensionality_dep** (277 theorems): `C08_alloy_ends_partial`, `C08_final_calculables_at_ends_partial`, `C08_alloy_ends_refuted`, `C11_tables_positive`, `C14_compare_floats_partial`, `C14_compare_floats_refuted`, `C15_sensible_units_partial`, `C15_sensible_units_refuted`, `C20_relative_widths_partition`, `C22_series_resistance_partial`, `C22_series_resistance_refuted`, `C24_offsets_partial`, `C24_offsets_refuted`, `C25_unknown_task_rejected`, `C25_dispatch`, `C25_unknown_kind_rejected`, `C25_unknown_method_refuted`, `C25_unknown_method_rejected_partial`, `C26_positions_partial`, `C26_element_steps`, `C26_layer_steps`, `C26_positions_refuted`, `C27_linear_in_range`, `C27_out_of_range`, `C27_nearest`, `C28_bilinear_partial`, `C28_bilinear_refuted`, `C29_accepts`, `C29_series_law_partial`, `C29_out_of_range_refuted`, `C30_maximum_power_point`, `C30_isc_voc`, `C34_resistive_inverse_partial`, `C34_zero_resistance_refuted`, `C34_external_partial`, `C34_external_new_junction_fails`, `C34_external_refuted`, `C35_absorptance_partial`, `C35_edge_refuted`, `C35_negative_refuted`, `C35_qe`, `C37_identify_layers_partial`, `C37_same_type_refuted`, `C37_refusals`, `C44_inverse_partial`, `C44_negative_refuted`, `C44_docstring_refuted`, `C47_layers_list_refuted`, `C47_error_stops`, `C52_positive_thickness_refuted`, `C52_well_fraction`, `C52_barrier_fraction_refuted`, `C52_unknown_option_ignored`, `C56_symmetric_partial`, `C56_levels`, `C56_nonuniform_refuted`, `C56_periodic_partial`, `C56_periodic_refuted`, `C57_assembly_partial`, `C57_no_repeats_refuted`, `C58_smooth_partial`, `C58_windows_refuted`, `C58_short`, `C61_exact`, `C61_between`, `C61_outside`, `C62_quad`, `C62_linear`, `C62_epsilon`, `C63_netlist`, `C65_temperature_ignored`, `C65_temperature_refuted`, `C66_branches`, `C67_partial`, `C67_reversed`, `C67_refuted`, `C68_partial`, `C68_defaults`, `C68_thin`, `C68_equal_spacing`, `C68_deep_thin`, `C68_no_junction`, `C68_refuted_back`, `C68_refuted_order`, `C68_update_constant`, `C68_dense`, `C68_update_dense`, `C69_doping`, `C72_registered_solver_used_partial`, `C72_iv_registry_refuted`, `C73_default_mesh_partial`, `C73_default_mesh_refuted`, `C74_optics_current_partial`, `C74_optics_current_refuted`, `C74_other_tasks_partial`, `C91_symmetric_partial`, `C91_interface_refuted`, `C92_local_equation`, `C92_nonuniform_refuted`, `C95_parabolic_levels`, `C95_all_levels_refuted`, `C98_varied_wells_partial`, `C98_shared_well_refuted`, `C99_energy_filter`, `C100_confinement_partial`, `C100_two_wells_refuted`, `C101_series`, `C102_dispersion_partial`, `C102_exceeds_refuted`, `C102_width_refuted`, `C103_names`, `C104_results_partial`, `C105_dead_ends_partial`, `C105_diagonal_refuted`, `C106_solver_voltages`, `C107_currents_partial`, `C107_uneven_grid_refuted`, `C108_limits_partial`, `C108_beyond_gap_refuted`, `C109_options_partial`, `C109_convergence_ignored`, `C109_convergence_refuted`, `C110_layers`, `C113_no_solution`, `C113_refuted`, `C114_partial`, `C114_refuted`, `C115_sweep_order`, `C116_partial`, `C116_refuted`, `C117_srv`, `C118_material`, `C118_complete`, `C119_qe`, `C120_position`, `C120_order`, `C120_points`, `C120_identity`, `C120_spectrum`, `C120_between_partial`, `C120_refuted`, `C122_aligned`, `C122_again`, `C132_clamp_partial`, `C132_clamp_refuted`, `C132_decrease_refuted`, `C133_generation`, `C133_ramp`, `C135_solve`, `C135_unique`, `C137_ends`, `C137_first`, `C137_codes_refuted`, `C138_mesh_partial`, `C138_mesh_refuted`, `C138_uniform`, `C139_layer`, `C139_changes`, `C143_joules_partial`, `C143_joules_refuted`, `C144_order`, `C144_file`, `C144_between`, `C144_outside`, `C144_temperature_partial`, `C144_temperature_refuted`, `C145_plain`, `C145_alloy`, `C145_case_refuted`, `C145_folder_refuted`, `C145_tenths_refuted`, `C148_between`, `C148_nonneg`, `C148_integral`, `C148_element`, `C148_single_refuted`, `C148_beyond_refuted`, `C154_construct`, `C154_edit`, `C156_balance`, `C156_missing`, `C156_function_refuted`, `C156_element`, `C159_shapes_partial`, `C159_constants`, `C159_layers`, `C159_temperature_refuted`, `C159_kind_refuted`, `C162_result`, `C162_exhausted`, `C162_convergence`, `C162_individuals_partial`, `C162_individuals_refuted`, `C163_parallel`, `C163_again_partial`, `C163_again_refuted`, `C94_overlap`, `C166_roles_partial`, `C167_average`, `C167_defined`, `C167_probability`, `C167_mean_refuted`, `C167_lost_refuted`, `C168_strain_refuted`, `C169_levels`, `C170_edge`, `C170_units_refuted`, `C173_default`, `C175_update`, `C175_spectrum_partial`, `C175_unknown`, `C175_missing`, `C175_fails`, `C175_spectral2`, `C175_outputs_refuted`, `C179_regions`, `C179_incoming`, `C181_curve`, `C181_guess`, `C181_normal`, `C183_load`, `C183_only_dpol`, `C183_blank`, `C183_append`, `C183_dpol_units_refuted`, `C183_angles_refuted`, `C183_dpol_mixed_refuted`, `C185_sections_refuted`, `C185_sellmeier`, `C185_sellmeier_odd`, `C186_parameters`, `C186_intrinsic_refuted`, `C187_flat`, `C187_flat_trans_refuted`, `C189_machine`, `C189_on_curve`, `C189_undo`, `C189_saved`, `C189_unfinished_refuted`, `C191_roundtrip`, `C191_name_refuted`, `C191_same_refuted`, `C192_mass`, `C192_wave`, `C192_waves`, `C192_trim_refuted`, `C192_bands`, `C193_square`, `C193_colours_kept`, `C193_colours_differ`, `C193_colours_refuted`, `C193_colour`, `C193_unknown`, `C193_blank_refuted`, `C194_values`, `C194_txt`, `C194_missing`, `C194_folder_refuted`, `C194_same`, `C194_csv_missing`, `C195_gap`, `C195_other`, `C195_last_refuted`, `C195_order_refuted`, `C196_smoothing`, `C197_type`, `C197_dynamic`, `C197_dynamic_refuted`, `C197_single`, `C197_light`, `C197_iqe_flux`, `C197_surfaces`, `C197_closed`, `C197_surfaces_refuted`, `C197_absorption`, `C197_absorption_refuted`, `C197_flux_linear`

* **sig_forall_dec, sig_not_dec, functional_extensionality_dep** (137 theorems): `C36_depletion_widths_partial`, `C36_charge_balance_refuted`, `C36_one_sided_balance_partial`, `C41_profile_pointwise_partial`, `C41_order_refuted`, `C42_entering`, `C43_stokes`, `C43_polarisation`, `C46_operations_partial`, `C46_add_partial`, `C46_array_partial`, `C47_refines_partial`, `C47_failed_layer_refuted`, `C48_own_index_partial`, `C48_absorber_partial`, `C48_late_binding_refuted`, `C48_raw_data`, `C53_sign_checks`, `C53_agrees_with_kp`, `C53_directions`, `C53_lattice_matched_partial`, `C53_split_off_refuted`, `C54_hermitian`, `C54_eigenvalues_real`, `C54_bands`, `C55_masses_partial`, `C55_masses_refuted`, `C56_energies`, `C77_current_at_zero_bias_refuted`, `C78_internal_reflection`, `C82_analytic`, `C83_extinction_refuted`, `C88_mass_sum`, `C90_edges_partial`, `C90_labels_refuted`, `C91_zone_centre_partial`, `C92_wavefunctions_partial`, `C92_no_level`, `C93_band_profile`, `C97_blur_refuted`, `C84_grazing`, `C118_lifetime`, `C121_elements`, `C121_tunnels`, `C121_tunnel_refuted`, `C121_errors`, `C121_metal`, `C123_mesh`, `C124_scaling_partial`, `C124_bus_refuted`, `C141_nodes`, `C141_dark_current`, `C141_loop`, `C143_day_partial`, `C145_absorption`, `C145_alpha`, `C146_first_row_partial`, `C147_thick`, `C147_foreign`, `C156_partition`, `C156_shading_refuted`, `C157_single`, `C157_mean`, `C157_balance`, `C157_word_refuted`, `C157_cell`, `C158_leak_refuted`, `C94_edge`, `C94_weights`, `C94_staircase`, `C94_exciton_args`, `C94_dimension`, `C94_total`, `C94_default_refuted`, `C94_hydrogen`, `C94_excitons`, `C94_spectrum`, `C164_zone`, `C164_line`, `C164_direction`, `C164_critical`, `C165_walk`, `C165_single_refuted`, `C165_names`, `C169_sum`, `C170_absorption_partial`, `C170_total_refuted`, `C170_adachi_refuted`, `C178_absorbs`, `C179_depletion`, `C179_widths`, `C179_recombination`, `C180_components`, `C180_character`, `C180_confined`, `C180_upper_order`, `C180_electron_bands`, `C180_hole_bands`, `C180_wave_vectors`, `C180_top_band_refuted`, `C180_edges`, `C180_field`, `C180_lower_order_refuted`, `C180_total_refuted`, `C180_barrier_refuted`, `C180_threshold_refuted`, `C180_no_light_hole_refuted`, `C180_electron_zero`, `C181_bands`, `C181_kp_bands`, `C181_wave_vector_refuted`, `C181_point_masses`, `C181_direction`, `C181_in_plane`, `C181_average`, `C181_bulk`, `C184_mse`, `C184_mse_frame`, `C184_zero`, `C184_widths`, `C184_frozen`, `C184_fit`, `C184_correlations`, `C184_stale_refuted`, `C184_psi_error_refuted`, `C184_zero_division`, `C185_lorentz`, `C185_e2`, `C185_exciton`, `C185_e0`, `C187_profile`, `C187_last_refuted`, `C192_width_refuted`, `C192_electrons`, `C192_holes`, `C195_qw_refuted`, `C195_qw_device`

* **sig_forall_dec, classic, functional_extensionality_dep** (1 theorems): `C68_update`

* **sig_forall_dec, sig_not_dec, classic, functional_extensionality_dep** (274 theorems): `C11_unit_round_trip`, `C11_convert_same_amount`, `C11_prefixes`, `C11_value_with_unit`, `C12_photon_conversions`, `C13_spectral_conversion`, `C31_diode_curve`, `C31_open_circuit_partial`, `C31_open_circuit_refuted`, `C31_reference_point`, `C32_update_j0`, `C32_solver_agrees`, `C33_light_history_partial`, `C33_dark_erases_photocurrent`, `C33_dark_first_refuted`, `C33_other_source_refuted`, `C38_diffusion_current_partial`, `C38_diffusion_increases_refuted`, `C38_dark_current_at_zero_partial`, `C38_equal_lifetimes_refuted`, `C39_energy`, `C39_profile`, `C40_attribution_partial`, `C40_element_profile_partial`, `C40_layerless_refuted`, `C40_layerless_slab_partial`, `C42_balance_partial`, `C42_reciprocity_partial`, `C42_lossless`, `C42_unpolarised_partial`, `C46_add_refuted`, `C46_opaque_flip_refuted`, `C49_output_units`, `C50_roundtrip_partial`, `C50_photon_hz_partial`, `C50_unit_names_refuted`, `C50_photon_hz_refuted`, `C51_abscissas_partial`, `C51_requested_refuted`, `C51_internal_refuted`, `C52_zero_stress`, `C52_thickness_sign`, `C62_partial`, `C62_binaries`, `C62_refuted`, `C62_fraction`, `C62_InGaAs_ends`, `C62_GaInP_holes`, `C62_general_ends`, `C62_quaternary_ends`, `C62_Al_holes`, `C62_InGaAs`, `C62_refuted_ends`, `C62_refuted_InAsP`, `C62_unknown`, `C62_refuted_spelling`, `C62_no_temperature`, `C62_valleys`, `C62_quaternary_lower`, `C75_reference_efficiency`, `C75_rad_eff_partial`, `C75_rad_eff_refuted`, `C76_J01_is_emission`, `C77_parametric_partial`, `C77_not_monotone_refuted`, `C78_detailed_balance_curve`, `C78_external_eqe_refuted`, `C78_two_temperatures`, `C79_green_solves_bvp_partial`, `C79_collection_bounded`, `C80_sah_integral_partial`, `C80_reverse_bias_refuted`, `C81_stored_alpha_partial`, `C81_late_binding_refuted`, `C82_density`, `C83_mixture_partial`, `C85_default_units_refuted`, `C85_default_nm_partial`, `C86_update_partial`, `C86_failed_update_refuted`, `C86_stale_abscissas_refuted`, `C87_black_body`, `C87_laser`, `C87_default_zero_refuted`, `C89_critical_thickness_partial`, `C89_no_solution_refuted`, `C89_lattice_fraction_refuted`, `C111_diffusion_equation_partial`, `C111_dark_current_partial`, `C111_mirror`, `C111_lifetimes_refuted`, `C111_recombination_sign`, `C84_energy_partial`, `C84_net_radiation`, `C84_slab`, `C84_absorbing_refuted`, `C112_profile`, `C125_instance`, `C125_parameter`, `C126_affinity`, `C126_offsets`, `C126_mass_action`, `C126_temperature`, `C126_power`, `C126_tabulated`, `C126_alloy_refuted`, `C127_uniform`, `C127_terminal_partial`, `C127_balance`, `C127_terminal_refuted`, `C128_mass_action`, `C128_direction`, `C128_equilibrium`, `C128_no_current`, `C129_holes`, `C129_electrons_partial`, `C129_electrons_refuted`, `C130_init`, `C130_neutral`, `C131_poisson`, `C131_continuity_partial`, `C131_continuity_refuted`, `C131_rates`, `C134_balance_partial`, `C134_last_refuted`, `C136_newton`, `C136_poisson`, `C136_surfaces`, `C136_continuity_partial`, `C136_descent_partial`, `C140_balance`, `C140_blocked`, `C141_unique`, `C141_gain`, `C141_dark_refuted`, `C142_passive_partial`, `C142_models_refuted`, `C142_clearer`, `C143_height`, `C143_horizon_refuted`, `C143_day_refuted`, `C143_east_refuted`, `C146_radiative_refuted`, `C147_balance_partial`, `C147_incoherent_partial`, `C147_reuse_refuted`, `C149_layer_partial`, `C149_total_partial`, `C150_coherent_partial`, `C150_stack_partial`, `C150_incoherent_partial`, `C150_threshold_refuted`, `C150_positions_refuted`, `C151_sellmeier`, `C151_powers`, `C151_gases`, `C151_herzberger`, `C151_retro`, `C151_exotic`, `C151_resonances_partial`, `C151_resonances_refuted`, `C151_range`, `C152_independent`, `C152_rows`, `C152_formula`, `C152_points_refuted`, `C152_missing`, `C152_nodes`, `C153_download`, `C153_replace`, `C153_keep`, `C153_then_nodes`, `C153_first_use_refuted`, `C153_failed_refuted`, `C154_pole`, `C154_lorentz`, `C154_drude`, `C154_gauss`, `C154_sum_partial`, `C154_order`, `C154_shape_refuted`, `C154_units`, `C154_passive_partial`, `C154_poles_refuted`, `C154_cauchy`, `C154_add`, `C155_linear`, `C155_sign`, `C155_constant`, `C155_gauss_partial`, `C155_above_refuted`, `C155_segments_refuted`, `C157_profile`, `C94_lorentz`, `C94_hwhm_refuted`, `C94_binding`, `C94_emission`, `C94_voltage_refuted`, `C94_gauss`, `C168_edges_partial`, `C168_masses_partial`, `C168_again_refuted`, `C169_states_partial`, `C169_shared_refuted`, `C169_barrier_refuted`, `C171_effective_partial`, `C171_repeat_refuted`, `C171_absorption_refuted`, `C171_twice_refuted`, `C172_entries_partial`, `C172_flag`, `C172_normal`, `C172_sign_refuted`, `C173_curve_partial`, `C173_boltzmann`, `C173_tail_refuted`, `C178_energies`, `C178_wavelengths_partial`, `C178_transparent`, `C178_parameters`, `C178_unused`, `C178_zero_refuted`, `C178_energy_refuted`, `C179_front`, `C179_rear`, `C179_parameters`, `C179_doping`, `C179_dark`, `C179_junction_partial`, `C179_current`, `C179_light`, `C179_conservation`, `C179_passive_refuted`, `C179_permittivity_refuted`, `C179_forward_refuted`, `C179_dropped_refuted`, `C179_intrinsic`, `C181_parabolas`, `C181_weights_refuted`, `C181_isotropic`, `C185_broad`, `C185_e1`, `C185_eid`, `C185_total`, `C185_optical`, `C185_again`, `C185_frame`, `C185_leak_refuted`, `C185_documented_refuted`, `C185_unknown`, `C186_regions`, `C186_collected`, `C186_efficiencies`, `C186_eqe`, `C186_depleted`, `C186_superposition`, `C186_reference`, `C186_depleted_refuted`, `C186_voltages_refuted`, `C186_sides`, `C187_absorbed`, `C187_balance`, `C187_balance_refuted`, `C192_line`, `C192_density_nonneg`, `C194_csv_refuted`, `C196_mesh`, `C196_values`, `C196_size`, `C196_size_refuted`, `C196_interface_refuted`, `C196_number`, `C196_removed`, `C196_device`

## 5. Not modelled

* Plotting, printing, warnings, docstrings, the examples, the tests, packaging, and data files as such (they are arguments).
* Floating point: rounding, overflow, NaN and infinities (named where a branch tests for them).
* External engines: the ngspice program, scipy's quadrature, root finders, boundary value problem and eigenvalue solvers, S4/rayflare (RCWA), Sesame and SMARTS. They appear as parameters with a specification, or not at all.
* Remeshing between solutions (DynamicMesh) and the log files of the Fortran drift-diffusion module.
* The choice to use radiative coupling in IV.py:76-88; spline kinds of interp1d; quantum-well absorption; ellipsometry; RCWA optics; optics read from files; Kramers-Kronig and the dielectric oscillator models, except where listed in section 3.
* Concurrency, except the registration interleavings of C16.

## 6. Disagreements between the code and the stated properties

Each is a theorem with suffix `_refuted` (see the table above). The ones that change numerical results silently:

* C22 appended junctions do not add their series resistance; C24 repeated objects share one offset.
* C26 user positions whose number equals that of the layers or elements are taken for step sizes.
* C28 bilinear interpolation returns 0 on the upper edges.
* C33 a dark IV measurement erases the photocurrent of later light measurements.
* C35 the detailed-balance edge uses 1240 nm eV.
* C37 the doping of the base is never checked; C36 the one-sided depletion widths do not balance the charge.
* C38/C80 equal lifetimes make the recombination factor 0/0; for ratios above 1e7 it is overestimated without bound.
* C40/C81 layer-less junctions shift the absorbed light to the wrong element; closures read loop variables after the loop.
* C46 a flipped opaque layer reads zero absorption; C48 a mixed layer takes the model of the last layer; C83 mixing doubles the extinction.
* C50 photon_flux_per_hz input is scaled by the wrong abscissas; C51/C85 the abscissas returned are not those asked for; C87 black body abscissas start at 0.
* C52/C89 bisection returns a pole; C53 the split-off shift contains the splitting.
* C55 the heavy-hole mass across and the light-hole mass along growth are exchanged between two functions; C90/C91/C92 labelling, symmetry and scaling defects of the k.p and Schroedinger solvers.
* C57, C58, C97, C98, C100 quantum well assembly, smoothing, blurring, width variation and confinement filter.
* C62 above a temperature limit the mobility exceeds its maximum; GaInP and InAsP end points; alloys spelled GaInAs, AlInAs or AlInP silently get GaAs data; the temperature is never passed by the material system.
* C60 classes keep the source they were made with, SOPRA lookups depend on history, different requests share a key; C126 tabulated values of alloys are never used.
* C64 result tables lose the last digit of y from a thousand pixels on; C102 the width of the dispersion is squared; C105 contacts that touch diagonally are joined.
* C65 the temperature never reaches the Fortran module (300 K always); C107 currents at voltages off the grid of the first step are clamped; C108 bias beyond the gap; C109 convergence options are lost in a reset.
* C67 all-negative sweeps of a p-n junction are interpolated in decreasing order; C68 meshes that miss the back surface or run backwards; C114 junction depths from profiles taken at the wrong depth; C116 compensation ignored.
* C127 surface currents are left out for a compensated last node; C129 the electron flux pairs the mobility of one node with the density of the other; C131 the Jacobian is not the derivative with recombination; C132 the last node is not clamped; C134 the quantum efficiency at the last wavelength is never computed.
* C84 a thin, strongly absorbing layer treated as incoherent transmits more than the incident light.
* C120 critical points of the shipped GaAsP table change order, the interpolation then runs on wavelengths that do not increase.
* C138 with a finest size above the coarse one the last element of a layer is twice as long as asked for; C141 radiative coupling makes a cell in the dark deliver current at zero voltage.
* C142 the urban aerosol model fails; C143 with the sun just below the horizon SPCTRAL2 gives more light than with the sun up, dates lag by one day, and the sign of the longitude disagrees with the default object.
* C144 SOPRA temperatures are interpolated 0.04 K too low; C145 alloys written in capitals silently become vacuum, SiPOLY ends the interpreter, ZnSeTe files are numbered in tenths; C146 radiative_recombination asks for n at an energy.
* C147 a Layer object used twice in a cell keeps only its last absorption, the rest counts as transmitted; C148 the generation profile can be negative just beyond its last depth, a single depth makes solve_tmm fail.
* C150 zero_threshold is compared with the light that reaches a layer, not with what it absorbs as documented, and the fraction is taken by counting the sampled layers; in incoherent layers the profile is normalised to the deepest sample.
* C151 formula 4 of refractiveindex.info with two or more powers reads the wrong coefficients (dbmaterial.py:297, 9+kk instead of 9+2kk).
* C152 a formula followed by a table of k is sampled at as many points as the table has rows.
* C153 download_db() with the default confirm=False downloads nothing when there is no database yet, and a download that fails has already emptied the tables.
* C154 a DielectricConstantModel without oscillators returns a number for an array of wavelengths; PolySegment refuses arrays (dielectric_constant_models.py:305); poles only and a negative dielectric constant give nan.
* C155 the Kramers-Kronig integral stops at 5 eV and is not defined above (below 248 nm), although the example in the file starts at 200 nm; PolySegment.dielectric integrates a constant instead of its segments (line 305).
* C156 shading is not taken off the generation of the elements with external optics, and the documented function as reflectance is a TypeError; C157 `pol` in any other spelling gives absorptances summed over the polarisations; C158 S4 options leak into later calls; C159 shape materials that differ in temperature only are confused, shapes of unknown type dropped.
* C160 spice.py:64 sees only rows that begin in the first column with a digit or a point; pv_module_solver.py:125 only those with a digit in the second column.
* C161 spice.py:21 freezes the default engine at import, and lines 75, 83 pass the class `spice` as the engine.
* C162 differential_evolution.py:37 keeps views of the population that yabox goes on changing.
* C163 differential_evolution.py:66 terminates the pool after the first run.
* C94 hwhm is not the half width of either line; calc_alpha cannot be called with its default energies; calc_emission ignores the voltage. C165 one step per part gives nan.
* C166 layers used at an end and inside change their role; C167 QWunit.py:124-126 and 144-146 leave out the last interval of each layer; C168 QWunit.py:101 has the wrong sign of the valence shift, and lines 177-179 multiply the masses again; C169 shared materials and leaking states.
* C170 QWunit.py:311 is outside the loop, lines 275-282 always fall back to the bulk data, line 337 multiplies where it should divide; C171 `repeat` and the absorption are needed although optional, and materials of the user are changed.
* C172 calculate_ellipsometry folds Delta into [180, 360] whatever its sign (transfer_matrix.py:643-650): films with conjugate rp/rs give the same psi and Delta.
* C173: an absorptance with a tail below the gap makes the emission of the full Planck mode negative at voltages inside the tail, and the dark current falls.
* C174: negative selector flags of the SMARTS file are taken from the end of the list of alternatives; card 10d is written for IALBDG = 1, unlike card 10a for IALBDX = -1.
* C175: the SMARTS outputs "Extraterrestial" and "True direct" have the same column; a missing option is reported as an unknown output.
* C176: a tagged function that a class has under two names is exported under the first only.
* C177: the texts of the SOPRA material SiPOLY do not contain its fraction.
* C180 hole levels of the lower block are not sorted, mixed levels are normalised to two, and schrodinger fails without light (or heavy) hole levels.
* C181 weights of fit_effective_masses: the comment promises more weight near k = 0, curve_fit divides by them; kp_bands overwrites kx and ky.
* C182 create_new_material: material sources are lower-cased, but existing names are looked up with case; alloys read folder/n while folder/n.txt is written; parameters are merged, never replaced.
* C183 depolarisations keep the unit of the file and are permuted by append_data; C184 np_cache keeps the optical constants of a model whose parameters are being fitted, and psi is weighted with itself instead of its error.
* C185 arguments of an oscillator of Custom_CPPB are written into the dictionary of its material (shared oscillators change on the next evaluation); documented arguments raise KeyError or TypeError.
* C186 the depleted region is integrated without its last slice of 1001; photocurrents depend on the list of voltages asked for.
* C121 tunnel junction resistances are placed by counting, not by position; C124 bus bar resistances are not scaled with the rest of the network.
* C111 the lifetimes pair the diffusion length of one carrier with the diffusion coefficient of the other.
