{"id": "C01", "title": "Configuration writes are durable", "statement": "After any finite sequence of successful operations on a loaded configuration (setting an option, removing a source, restoring one or all default sources), opening the configuration again from the same home folder yields exactly the option values the live object shows.", "quantifier": "every default file, every well-formed user file, every finite history of set / remove_source / restore_default_source / restore_defaults calls, including calls that raise", "why_tests_cant": "the history is unbounded and each call mixes an in-memory map with a file; a test checks a handful of histories", "anchors": ["solcore/config_tools.py:SolcoreConfig.__setitem__", "solcore/config_tools.py:SolcoreConfig.remove_source", "solcore/config_tools.py:SolcoreConfig.restore_default_source", "solcore/config_tools.py:SolcoreConfig._save_user_config"]}
{"id": "C02", "title": "reset_defaults brings the configuration back to the shipped defaults", "statement": "After reset_defaults the live configuration and the saved one are both the shipped default configuration, so a later save cannot bring discarded user entries back.", "quantifier": "every configuration state before the reset and every operation afterwards", "why_tests_cant": "the stale entry only reappears on a later, unrelated save, so a test that looks right after the reset passes", "anchors": ["solcore/config_tools.py:SolcoreConfig.reset_defaults"]}
{"id": "C03", "title": "Saving the configuration survives a crash at any point", "statement": "If the process dies at any point while an option is being saved, the next start sees either the old or the new configuration.", "quantifier": "every crash point inside one save and every configuration content", "why_tests_cant": "a unit test does not interrupt a write at an arbitrary byte", "anchors": ["solcore/config_tools.py:SolcoreConfig._save_user_config", "solcore/config_tools.py:SolcoreConfig.__init__"]}
{"id": "C04", "title": "Observers of a configuration section track it", "statement": "After any history of operations, the last value announced to the observer of a section for an option is the value the configuration now holds for that option (or that it no longer exists).", "quantifier": "every history of configuration operations and every section/option", "why_tests_cant": "needs every ordering of set, remove and restore; the missing announcements only show for particular kinds of sources", "anchors": ["solcore/config_tools.py:SolcoreConfig._notify_observers", "solcore/config_tools.py:SolcoreConfig.remove_source", "solcore/config_tools.py:SolcoreConfig.restore_defaults"]}
{"id": "C05", "title": "Restoring the defaults keeps user-added entries and fixes every default entry", "statement": "restore_defaults (also run on a version change) leaves every option that is not in the shipped defaults untouched and sets every option that is in the shipped defaults to its shipped value.", "quantifier": "every default configuration and every user configuration", "why_tests_cant": "unbounded family of pairs of configurations, including user files from older versions with missing sections", "anchors": ["solcore/config_tools.py:SolcoreConfig.restore_defaults", "solcore/config_tools.py:SolcoreConfig.__init__"]}
{"id": "C06", "title": "A later source overrides an earlier one, and nothing else changes", "statement": "After reading sources in some order, each parameter has the value given by the last read source that defines it, and parameters no source defines are absent.", "quantifier": "every list of sources and every content of them", "why_tests_cant": "combinatorial number of overlaps between source files", "anchors": ["solcore/source_managed_class.py:SourceManagedClass.read"]}
{"id": "C07", "title": "Removing a data source removes its data", "statement": "After a source is removed, the managed database holds exactly what the remaining sources define.", "quantifier": "every history of adding and removing sources", "why_tests_cant": "the stale data is visible only for keys that no remaining source defines", "anchors": ["solcore/source_managed_class.py:SourceManagedClass.read", "solcore/units_system/units_system.py:UnitsSystem.read"]}
{"id": "C08", "title": "Alloy parameters reduce to the parents at the end compositions", "statement": "For a ternary (or nested) alloy entry, asking for a parameter at composition 0 gives exactly the first parent's value and at composition 1 exactly the second parent's, whatever the bowing parameter; at zero bowing the value lies between the two parents for every composition in [0,1].", "quantifier": "every database, material, parameter, bowing value and composition in [0,1], and every other parameter passed", "why_tests_cant": "continuum of compositions and arbitrary nesting of alloys", "anchors": ["solcore/parameter_system/parameter_system.py:ParameterSystem.get_parameter", "solcore/parameter_system/parameter_system.py:bow"]}
{"id": "C09", "title": "Parameter lookup follows one fixed precedence", "statement": "get_parameter uses a final calculable unless the material itself defines the parameter; otherwise the alloy rule when the material is an alloy; otherwise the material's own entry; otherwise an immediate calculable; otherwise it raises ValueError. An unknown material is rejected before anything is evaluated.", "quantifier": "every database and every request", "why_tests_cant": "every combination of presence/absence of the entry in four places, at every level of the recursion", "anchors": ["solcore/parameter_system/parameter_system.py:ParameterSystem.get_parameter"]}
{"id": "C10", "title": "Parameter lookup terminates on layered databases", "statement": "If the database can be ordered so that every alloy only refers to earlier materials and every calculable only to earlier parameters, each lookup finishes with a value or an error after boundedly many recursive calls; on a database where a material is its own parent it does not finish.", "quantifier": "every layered database and every request", "why_tests_cant": "termination cannot be tested", "anchors": ["solcore/parameter_system/parameter_system.py:ParameterSystem.get_parameter"]}
{"id": "C11", "title": "Unit conversion round-trips", "statement": "Converting a value from one unit to another and back returns the value, and converting through an intermediate unit is the same as converting directly, for every compound unit of known base units.", "quantifier": "every value, every unit table with non-zero factors, every list of (unit, power) pairs, every integer power", "why_tests_cant": "compound units form an infinite family and conversion factors are arbitrary user data", "anchors": ["solcore/units_system/units_system.py:UnitsSystem.siUnits", "solcore/units_system/units_system.py:UnitsSystem.asUnit", "solcore/units_system/units_system.py:UnitsSystem.convert"]}
{"id": "C12", "title": "Photon energy / wavelength / frequency conversions are involutions and agree", "statement": "eVnm, nmJ and nmHz applied twice give back the (non-zero) value, map increasing grids to decreasing ones, and are mutually consistent (E = h f, E lambda = h c).", "quantifier": "every non-zero real", "why_tests_cant": "continuum of values", "anchors": ["solcore/units_system/units_system.py:UnitsSystem.eVnm", "solcore/units_system/units_system.py:UnitsSystem.nmJ", "solcore/units_system/units_system.py:UnitsSystem.nmHz"]}
{"id": "C13", "title": "Spectral conversion preserves the spectrum", "statement": "Converting a spectrum (x, y) from per-nm to per-eV (or per-Hz) and back gives the original arrays; the converted grid is sorted when the input grid is; the power between two corresponding abscissas is preserved (y' |dx'/dx| = y pointwise).", "quantifier": "every pair of equally long lists of positive abscissas and values", "why_tests_cant": "lists of arbitrary length and real values", "anchors": ["solcore/units_system/units_system.py:UnitsSystem.spectral_conversion_nm_ev", "solcore/units_system/units_system.py:UnitsSystem.spectral_conversion_nm_hz"]}
{"id": "C14", "title": "compare_floats decides relative closeness", "statement": "compare_floats(a,b,precision) is true exactly when a and b differ by at most the given relative precision, in particular it is symmetric and never true for numbers far apart.", "quantifier": "every pair of reals and every precision", "why_tests_cant": "continuum, sign combinations", "anchors": ["solcore/units_system/units_system.py:compare_floats"]}
{"id": "C15", "title": "sensibleUnits returns a unit that denotes the same quantity", "statement": "For every non-zero value and known dimension sensibleUnits returns (v,u) where v in u equals the value.", "quantifier": "every value and dimension", "why_tests_cant": "all values", "anchors": ["solcore/units_system/units_system.py:UnitsSystem.sensibleUnits"]}
{"id": "C16", "title": "A registered solver is never silently replaced", "statement": "Without the overwrite flag, registering a name that is already registered raises and leaves every registry unchanged; registering in one registry never affects another; an excluded solver is never stored and never removes a stored one.", "quantifier": "every history of registrations, in every interleaving of obtaining a decorator and applying it", "why_tests_cant": "interleavings of decorator creation and application are unbounded; the check and the store happen at different times", "anchors": ["solcore/registries.py:generic_register"]}
{"id": "C17", "title": "State behaves as an insertion-ordered mapping with attribute access", "statement": "After any history of attribute/item assignments and deletions, attribute and item reads agree, return the last assigned value, and keys are in first-insertion order; missing attributes raise KeyError (not AttributeError).", "quantifier": "every history of operations", "why_tests_cant": "unbounded histories", "anchors": ["solcore/state.py:State"]}
{"id": "C18", "title": "Option merging: later options win, inputs are untouched", "statement": "Merging option dictionaries gives, for every key, the value of the last dictionary that has it, contains no other key, and modifies none of its arguments.", "quantifier": "every list of option dictionaries", "why_tests_cant": "unbounded family of overlapping dictionaries", "anchors": ["solcore/solar_cell_solver.py:merge_dicts"]}
{"id": "C19", "title": "Layers and labels of a structure stay aligned", "statement": "After any history of append / append_multiple calls, a structure has exactly one label per layer, the i-th label being the one given with the i-th layer, and failed calls change nothing except what they appended before failing.", "quantifier": "every history of appends with every repeat count", "why_tests_cant": "unbounded histories", "anchors": ["solcore/structure.py:Structure.append", "solcore/structure.py:Structure.append_multiple"]}
{"id": "C20", "title": "Relative widths form a partition of the structure", "statement": "relative_widths gives every label the fraction of the total width carried by its layers; fractions are in [0,1] and add up to 1.", "quantifier": "every structure of positive total width", "why_tests_cant": "every grouping of labels", "anchors": ["solcore/structure.py:Structure.relative_widths"]}
{"id": "C21", "title": "Junction bookkeeping of a solar cell", "statement": "After construction and any history of appends, the junction (tunnel) indices are exactly the increasing list of positions holding a Junction (TunnelJunction), the junction counter is their number, and solar_cell(i) is the i-th junction.", "quantifier": "every list of elements and every history of append/append_multiple/update_junction", "why_tests_cant": "unbounded histories", "anchors": ["solcore/solar_cell.py:SolarCell.__init__", "solcore/solar_cell.py:SolarCell.append", "solcore/solar_cell.py:SolarCell.sort_layer_type", "solcore/solar_cell.py:SolarCell.update_junction"]}
{"id": "C22", "title": "The series resistance does not depend on how the cell was assembled", "statement": "A solar cell built by the constructor and one built by appending the same elements have the same series resistance.", "quantifier": "every list of elements and every split into constructor part and appended part", "why_tests_cant": "the difference is only visible for cells extended after construction", "anchors": ["solcore/solar_cell.py:SolarCell.__init__", "solcore/solar_cell.py:SolarCell.append"]}
{"id": "C23", "title": "Material strings keep the composition", "statement": "Turning a material into its (name, element, fraction) description keeps the alloy element and fraction, so that the material can be rebuilt from it.", "quantifier": "every material with any keyword parameters", "why_tests_cant": "depends on the alphabetical position of unrelated keyword parameters", "anchors": ["solcore/structure.py:SolcoreMaterialToStr", "solcore/structure.py:ToSolcoreMaterial"]}
{"id": "C24", "title": "Preparation assigns contiguous offsets", "statement": "After preparing a cell, each element's offset is the sum of the widths of the elements before it, the cell width is the total, and consecutive elements touch without gap or overlap.", "quantifier": "every cell", "why_tests_cant": "every composition of layers and junctions", "anchors": ["solcore/solar_cell_solver.py:prepare_solar_cell"]}
{"id": "C25", "title": "Unknown tasks and methods are rejected", "statement": "solar_cell_solver raises ValueError for a task that is not registered; for known tasks and valid methods it runs exactly the registered functions.", "quantifier": "every task name, every option set, every registry content", "why_tests_cant": "all names, all histories (cached optics)", "anchors": ["solcore/solar_cell_solver.py:solar_cell_solver", "solcore/solar_cell_solver.py:solve_optics", "solcore/solar_cell_solver.py:solve_iv"]}
{"id": "C26", "title": "Position vectors given by the user are used as given", "statement": "process_position returns the user's vector unchanged when it is a list of positions, and an equally spaced mesh when it is a spacing.", "quantifier": "every position option and every cell", "why_tests_cant": "a position vector whose length happens to equal the number of layers is reinterpreted", "anchors": ["solcore/solar_cell_solver.py:process_position"]}
{"id": "C27", "title": "Linear interpolation passes through its data and stays within it", "statement": "interp1d(kind=linear) returns the tabulated value at every node, lies between the neighbouring values inside each interval, is exact on affine data, and outside the range gives the fill value or raises when bounds_error is set.", "quantifier": "every strictly increasing table of at least two points and every query", "why_tests_cant": "continuum of tables and queries", "anchors": ["solcore/interpolate.py:interp1d"]}
{"id": "C28", "title": "Bilinear interpolation reproduces its grid", "statement": "BilinearInterpolation returns the tabulated value at every grid node and a value between the four corners inside each cell.", "quantifier": "every grid of at least 3x3 strictly increasing coordinates and every query inside it", "why_tests_cant": "continuum; the upper edges are a measure-zero set a random test never hits", "anchors": ["solcore/interpolate.py:BilinearInterpolation"]}
{"id": "C29", "title": "Series connection: equal current, additive voltage", "statement": "In the multi-junction IV curve (no radiative coupling), at every computed current the cell voltage is the sum of the junction voltages at that current plus the tunnel/series contributions, every junction is reported at the same current, and the cell current range is limited by the junctions.", "quantifier": "every number of junctions, every monotone junction IV table and every series resistance", "why_tests_cant": "arbitrary number of junctions and curve shapes", "anchors": ["solcore/analytic_solar_cells/IV.py:iv_multijunction"]}
{"id": "C30", "title": "Reported maximum power point is the maximum", "statement": "The reported Pmpp is the maximum of V*I over the sampled curve, Vmpp and Impp belong to the sample attaining it, FF = Pmpp/(Isc Voc) and Eta = Pmpp/incident power.", "quantifier": "every sampled IV curve", "why_tests_cant": "all curves", "anchors": ["solcore/analytic_solar_cells/IV.py:iv_multijunction"]}
{"id": "C31", "title": "Diode equation: monotone, anchored at -Jsc", "statement": "The two-diode current is strictly increasing in voltage, equals -Jsc at zero bias, never exceeds the cap, and the open-circuit inversion (J02 from Voc) gives a current of exactly zero at that Voc.", "quantifier": "every positive set of diode parameters, every temperature and voltage", "why_tests_cant": "continuum", "anchors": ["solcore/analytic_solar_cells/diode_equation.py:iv_2diode", "solcore/analytic_solar_cells/diode_equation.py:calculate_J02_from_Voc"]}
{"id": "C32", "title": "Temperature update of the saturation current", "statement": "Updating J0 from T to T is the identity, updates compose (T1 to T2 to T3 is T1 to T3), and J0 grows with temperature.", "quantifier": "all positive temperatures, gaps and ideality factors", "why_tests_cant": "continuum", "anchors": ["solcore/analytic_solar_cells/diode_equation.py:update_j0"]}
{"id": "C33", "title": "Light IV does not depend on an earlier dark IV", "statement": "Solving the dark IV of a 2-diode junction and then its light IV gives the same light IV as solving the light IV directly.", "quantifier": "every junction and every order of solver calls", "why_tests_cant": "requires histories of solver calls on the same object", "anchors": ["solcore/analytic_solar_cells/diode_equation.py:iv_2diode"]}
{"id": "C34", "title": "Tunnel junction voltage/current functions are inverse", "statement": "For resistive tunnel junctions vi(iv(V)) = V and both are increasing; the external-data tunnel junction reproduces the supplied data.", "quantifier": "every resistance and every external table", "why_tests_cant": "continuum; error only on the external-data path", "anchors": ["solcore/analytic_solar_cells/tunnel_junctions.py:resistive_tunnel_junction", "solcore/analytic_solar_cells/tunnel_junctions.py:external_tunnel_junction"]}
{"id": "C35", "title": "Detailed-balance absorptance is a fraction with a sharp edge", "statement": "The default absorptance is in [0,1], is the given value above the gap and zero below it; the resulting QE is between 0 and the absorbed fraction.", "quantifier": "every gap, absorptance value and wavelength", "why_tests_cant": "continuum", "anchors": ["solcore/analytic_solar_cells/detailed_balance.py:absorptance_detailed_balance", "solcore/analytic_solar_cells/detailed_balance.py:qe_detailed_balance"]}
{"id": "C36", "title": "Depletion widths conserve charge", "statement": "The depletion widths are non-negative, shrink with forward bias, vanish at the built-in voltage, and hold equal and opposite charge (wn*Nd = wp*Na).", "quantifier": "all dopings, permittivities, built-in voltages and biases below it, in both one-sided and two-sided expressions", "why_tests_cant": "continuum", "anchors": ["solcore/analytic_solar_cells/depletion_approximation.py:get_depletion_widths"]}
{"id": "C37", "title": "Layer identification of a junction", "statement": "identify_layers returns indices of existing layers with roles emitter < (intrinsic) < base, the polarity given by the doping types, and otherwise raises.", "quantifier": "every list of layers with every role spelling and doping", "why_tests_cant": "every role list", "anchors": ["solcore/analytic_solar_cells/depletion_approximation.py:identify_layers"]}
{"id": "C38", "title": "Dark diffusion current vanishes at equilibrium", "statement": "The dark current of the depletion approximation is zero at zero bias and increases with bias.", "quantifier": "every positive parameter set and voltage", "why_tests_cant": "continuum", "anchors": ["solcore/analytic_solar_cells/depletion_approximation.py:get_j_dark"]}
{"id": "C39", "title": "Beer-Lambert conserves energy", "statement": "For every stack, absorbed + transmitted equals the light entering the cell, all are in [0,1], and the integral of the absorption profile over an element is the light absorbed in it; the per-element absorptions add up to the total.", "quantifier": "every list of layers, absorption coefficients, widths, shading and reflectivity", "why_tests_cant": "arbitrary stacks, continuum of coefficients", "anchors": ["solcore/optics/beer_lambert.py:solve_beer_lambert", "solcore/optics/beer_lambert.py:calculate_absorption_beer_lambert"]}
{"id": "C40", "title": "Absorption is attributed to the element that absorbs", "statement": "layer_absorption of each cell element is the light absorbed in that element, also when the cell contains junctions without layers (DB / 2D kinds).", "quantifier": "every cell mixing layers, layered junctions and layer-less junctions", "why_tests_cant": "only particular orderings reveal the shift", "anchors": ["solcore/optics/beer_lambert.py:solve_beer_lambert"]}
{"id": "C41", "title": "The absorption profile depends only on the queried depth", "statement": "The differential absorption at a depth does not depend on the other depths queried in the same call or on their order.", "quantifier": "every list of depths", "why_tests_cant": "only unsorted depth lists reveal it", "anchors": ["solcore/optics/beer_lambert.py:calculate_absorption_beer_lambert"]}
{"id": "C42", "title": "TMM: energy conservation of coherent stacks", "statement": "For a coherent stack with real semi-infinite media, R plus the power entering equals one; for a lossless stack R + T = 1; in general the absorptions of all layers plus R plus T add up to one and transmission is the same in both directions for lossless stacks.", "quantifier": "every number of layers, every (complex) index and thickness, every angle below total reflection", "why_tests_cant": "arbitrary stacks; continuum", "anchors": ["solcore/absorption_calculator/tmm_core_vec.py:coh_tmm", "solcore/absorption_calculator/tmm_core_vec.py:absorp_in_each_layer"]}
{"id": "C43", "title": "Interface coefficients obey the Stokes relations", "statement": "For every interface and polarisation r12 = -r21, t12 t21 - r12 r21 = 1, and R12 + T12 = 1 for real indices; any other polarisation string is rejected.", "quantifier": "every pair of indices and angle cosines", "why_tests_cant": "continuum", "anchors": ["solcore/absorption_calculator/tmm_core_vec.py:interface_r", "solcore/absorption_calculator/tmm_core_vec.py:interface_t"]}
{"id": "C44", "title": "Depths map to the right layer", "statement": "find_in_structure returns the unique layer containing a depth and the distance inside it, so that layer start + distance gives the depth back.", "quantifier": "every list of thicknesses and every depth", "why_tests_cant": "continuum, interfaces", "anchors": ["solcore/absorption_calculator/tmm_core_vec.py:find_in_structure", "solcore/absorption_calculator/tmm_core_vec.py:find_in_structure_inf"]}
{"id": "C45", "title": "Grouping into coherent stacks and incoherent layers is a partition", "statement": "inc_group_layers assigns each layer either to exactly one incoherent slot or to exactly one (stack, position); the forward and backward index maps are mutually inverse; adjacent coherent layers share a stack.", "quantifier": "every list of 'c'/'i' flags", "why_tests_cant": "2^n patterns for every n", "anchors": ["solcore/absorption_calculator/tmm_core_vec.py:inc_group_layers"]}
{"id": "C46", "title": "Analytic absorption function operations", "statement": "Flipping an absorption function evaluates the original at the mirrored depth, scaling multiplies it, adding adds the values; flipping twice is the identity.", "quantifier": "every function parameters, thickness and depth", "why_tests_cant": "continuum", "anchors": ["solcore/absorption_calculator/tmm_core_vec.py:absorp_analytic_fn"]}
{"id": "C47", "title": "Optical stack bookkeeping", "statement": "After any history of adding, removing and swapping layers, widths, n and k data have the same length num_layers, and get_indices/get_widths return lists of equal length including the two semi-infinite media.", "quantifier": "every history of stack operations", "why_tests_cant": "unbounded histories", "anchors": ["solcore/absorption_calculator/transfer_matrix.py:OptiStack"]}
{"id": "C48", "title": "Each layer of an optical stack keeps its own optical model", "statement": "The refractive index used for a layer is that of the data/model it was created with, whatever is added to the stack afterwards.", "quantifier": "every sequence of added layers", "why_tests_cant": "depends on later additions", "anchors": ["solcore/absorption_calculator/transfer_matrix.py:OptiStack._add_raw_nk_layer"]}
{"id": "C49", "title": "Output units of a light source describe the same spectrum", "statement": "Power density and photon flux per nm / m / eV / J / Hz of one source are related by the photon energy and the Jacobian of the abscissa at every abscissa.", "quantifier": "every power spectrum and abscissa", "why_tests_cant": "continuum", "anchors": ["solcore/light_source/light_source.py:power_density_per_ev", "solcore/light_source/light_source.py:photon_flux_per_nm"]}
{"id": "C50", "title": "Custom spectra round-trip through their input units", "statement": "A custom spectrum given in some unit and read back in the same unit at the same abscissas is unchanged.", "quantifier": "every supported input unit and every table", "why_tests_cant": "continuum of tables, one unit differs", "anchors": ["solcore/light_source/light_source.py:LightSource._get_custom_spectrum"]}
{"id": "C51", "title": "spectrum(x) returns the abscissas it was asked for", "statement": "The abscissas returned by spectrum(x=...) are those the values were computed at.", "quantifier": "every call", "why_tests_cant": "mismatch only for calls with explicit x different from the construction-time x", "anchors": ["solcore/light_source/light_source.py:LightSource.spectrum"]}
{"id": "C52", "title": "Strain balancing gives zero average stress", "statement": "The thickness ratio returned by the strain-balance optimisation makes the average in-plane stress vanish.", "quantifier": "all elastic constants, lattice constants and thicknesses", "why_tests_cant": "continuum", "anchors": ["solcore/strain_balancing.py:optimise"]}
{"id": "C53", "title": "Strain shifts have the documented signs", "statement": "For physically signed inputs (ac<0, b<0, 0<=C12<C11) the sign checks of the strain calculation never raise, all shifts vanish for a lattice-matched layer, and the hole shifts agree with the k.p band edges.", "quantifier": "all parameters of those signs", "why_tests_cant": "continuum", "anchors": ["solcore/quantum_mechanics/strain.py:strain_calculation_parameters", "solcore/quantum_mechanics/strain.py:strain_calculation_asserts", "solcore/quantum_mechanics/kp_QW.py:kp4x4"]}
{"id": "C54", "title": "The 8-band Hamiltonian is Hermitian", "statement": "The matrix diagonalised for bulk bands is Hermitian for every wave vector and strain, hence its eigenvalues are real and taking the real part loses nothing.", "quantifier": "every k, strain and band parameter", "why_tests_cant": "continuum of 8x8 matrices", "anchors": ["solcore/quantum_mechanics/kp_bulk.py:eight_band_strain_hamiltonian"]}
{"id": "C55", "title": "Effective masses do not depend on which function computes them", "statement": "Hole masses parallel/transverse to growth used by the potential builder agree with those of the 4x4 model it names.", "quantifier": "all Luttinger parameters", "why_tests_cant": "continuum", "anchors": ["solcore/quantum_mechanics/structure_utilities.py:structure_to_potentials", "solcore/quantum_mechanics/kp_QW.py:kp4x4"]}
{"id": "C56", "title": "The discretised Schrodinger operator is symmetric and bounded below", "statement": "On a uniform mesh the matrix is symmetric and its quadratic form is at least min(V) times the norm, so no energy level lies below the bottom of the potential.", "quantifier": "every mesh size, potential and positive mass profile", "why_tests_cant": "arbitrary dimension", "anchors": ["solcore/quantum_mechanics/potential_utilities.py:tridiag_euler"]}
{"id": "C57", "title": "Quantum well assembly", "statement": "assemble_qw_structure with n repeats contains n wells, total barrier width n times the barrier, and bulk on both ends.", "quantifier": "every n and all layers", "why_tests_cant": "every n", "anchors": ["solcore/quantum_mechanics/structure_utilities.py:assemble_qw_structure"]}
{"id": "C58", "title": "Smoothing keeps the length and constants", "statement": "smooth returns an array of the input length for every valid window; the flat window maps constants to themselves and stays within the data range.", "quantifier": "every signal and window length", "why_tests_cant": "every length", "anchors": ["solcore/smooth.py:smooth"]}
{"id": "C59", "title": "Citations are recorded once", "statement": "With tracking on, each distinct reference appears once in the bibliography whatever the order and number of calls; with tracking off nothing is recorded.", "quantifier": "every history of calls", "why_tests_cant": "unbounded histories", "anchors": ["solcore/science_tracker.py:science_reference"]}
{"id": "C60", "title": "Materials are cached consistently", "statement": "material(name) returns the same class for the same name and options in one session, and reflects the material sources configured.", "quantifier": "every history of material requests and source changes", "why_tests_cant": "histories", "anchors": ["solcore/material_system/material_system.py:MaterialSystem.material"]}
{"id": "C61", "title": "Critical-point interpolation is exact at the tabulated compositions", "statement": "Interpolating optical data between alloy compositions returns the tabulated critical points at tabulated compositions and stays between neighbours inside the range.", "quantifier": "every sorted table of compositions and every target", "why_tests_cant": "continuum; negative-index wrap-around at the first composition", "anchors": ["solcore/material_system/critical_point_interpolate.py:interpolate_critical_points"]}
{"id": "C62", "title": "Low-field mobility stays within its limits", "statement": "The mobility model gives a value between its minimum and (temperature-scaled) maximum, decreasing with doping; alloy interpolations return the binaries at the end points.", "quantifier": "all dopings, temperatures and parameters", "why_tests_cant": "continuum", "anchors": ["solcore/material_data/mobility.py:mobility_low_field", "solcore/material_data/mobility.py:interpolate_parameter_quad"]}
{"id": "C63", "title": "SPICE netlists of a module have unique element names and a closed chain of nodes", "statement": "For any number of cells and junctions, all element names in the generated netlist are distinct, consecutive elements share nodes, every bypass diode spans exactly its cell and the last node is connected to the bias.", "quantifier": "every number of cells and junctions", "why_tests_cant": "unbounded circuit sizes", "anchors": ["solcore/spice/pv_module_solver.py:solve_pv_module", "solcore/spice/pv_module_solver.py:spice_junction"]}
{"id": "C64", "title": "Quasi-3D results are stored at the node they belong to", "statement": "The node location printed into the SPICE file and parsed back from its output is the same location.", "quantifier": "every junction index and pixel coordinate", "why_tests_cant": "fixed-width slicing breaks only for large indices", "anchors": ["solcore/spice/quasi_3D_solver.py:create_node", "solcore/spice/quasi_3D_solver.py:solve_circuit_quasi3D"]}
{"id": "C65", "title": "PDD IV runs at the requested temperature", "statement": "iv_pdd solves the device at the temperature it is given.", "quantifier": "every temperature and option set", "why_tests_cant": "argument forwarding through keyword dictionaries; needs the Fortran solver to observe", "anchors": ["solcore/poisson_drift_diffusion/DriftDiffusionUtilities.py:iv_pdd", "solcore/poisson_drift_diffusion/DriftDiffusionUtilities.py:calculate_iv"]}
{"id": "C66", "title": "Positive and negative IV branches are joined without gap or duplicate", "statement": "consolidate_iv of two branches both starting at zero bias gives an increasing voltage grid containing every sample once.", "quantifier": "every pair of branches", "why_tests_cant": "arbitrary lengths", "anchors": ["solcore/poisson_drift_diffusion/DriftDiffusionUtilities.py:consolidate_iv", "solcore/poisson_drift_diffusion/DriftDiffusionUtilities.py:find_voltage_limits"]}
{"id": "C67", "title": "Sesame IV sorts its voltages", "statement": "The voltages and currents handed to the interpolator of the Sesame solver are in increasing order and contain every requested voltage below the limit once.", "quantifier": "every list of distinct voltages, both polarities", "why_tests_cant": "only all-negative voltage lists reveal the problem", "anchors": ["solcore/sesame_drift_diffusion/solve_pdd.py:iv_sesame"]}
{"id": "C68", "title": "Sesame mesh generation succeeds and covers the device", "statement": "For every junction a strictly increasing mesh from the front to the back of the junction is produced.", "quantifier": "every junction width, spacing options and junction depth", "why_tests_cant": "thin junctions", "anchors": ["solcore/sesame_drift_diffusion/process_structure.py:make_mesh", "solcore/sesame_drift_diffusion/process_structure.py:update_mesh"]}
{"id": "C69", "title": "Doping is assigned to every mesh point exactly once", "statement": "Every mesh point inside the junction belongs to exactly one layer and gets that layer's doping at the local depth.", "quantifier": "every list of layer widths and every mesh point in range", "why_tests_cant": "continuum, interfaces", "anchors": ["solcore/sesame_drift_diffusion/process_structure.py:process_structure"]}
{"id": "C70", "title": "Device structure layer count", "statement": "After any history of AddLayers/RemoveLayer the recorded number of layers is the number of layers present.", "quantifier": "every history", "why_tests_cant": "histories with failing removals", "anchors": ["solcore/poisson_drift_diffusion/DeviceStructure.py:AddLayers", "solcore/poisson_drift_diffusion/DeviceStructure.py:RemoveLayer"]}
{"id": "C71", "title": "Boolean preferences read back as set, and the shipped preferences are on", "statement": "welcome_message and verbose_loading return the value last set, also after re-opening, and with the shipped configuration (value 1) they are on.", "quantifier": "every configuration state and every later state in which the option was not written again", "why_tests_cant": "the tests set the flag before reading it and never read the shipped text form", "anchors": ["solcore/config_tools.py:SolcoreConfig.welcome_message", "solcore/config_tools.py:SolcoreConfig.verbose_loading"]}
{"id": "C72", "title": "A registered junction solver is the one that runs", "statement": "For the iv, equilibrium and short_circuit tasks, each junction is solved by the solver registered for its kind.", "quantifier": "every registry content, every cell and every mix of junction kinds", "why_tests_cant": "the tests register a solver and look it up in the registry, they do not run a task on a junction of that kind", "anchors": ["solcore/solar_cell_solver.py:solve_iv", "solcore/solar_cell_solver.py:solve_equilibrium", "solcore/solar_cell_solver.py:solve_short_circuit", "solcore/registries.py:register_iv_solver"]}
{"id": "C73", "title": "The default depth mesh lies inside the cell", "statement": "Without a position option, all mesh points generated for a cell lie between 0 and the cell width.", "quantifier": "every cell with non-negative widths", "why_tests_cant": "the tests use cells in which the nominal and the actual junction widths agree", "anchors": ["solcore/solar_cell_solver.py:process_position", "solcore/solar_cell_solver.py:prepare_solar_cell"]}
{"id": "C74", "title": "Optical results belong to the options of the call", "statement": "After a successful optics task every element of the cell carries absorption results computed with the options of that call.", "quantifier": "every cell state left by earlier calls and every option set", "why_tests_cant": "needs two calls with different options on the same cell; tests solve each cell once", "anchors": ["solcore/solar_cell_solver.py:solve_optics"]}
{"id": "C75", "title": "J02 from a radiative efficiency gives that efficiency", "statement": "A junction whose J02 comes from the radiative-efficiency helpers emits exactly the stated fraction of its dark current at the reference point.", "quantifier": "all positive J01, efficiencies, temperatures, voltages and shunt resistances", "why_tests_cant": "continuum; the helpers have no tests", "anchors": ["solcore/analytic_solar_cells/diode_equation.py:calculate_J02_from_rad_eff", "solcore/analytic_solar_cells/diode_equation.py:calculate_j02_from_J01_Jsc_reference_radiative_efficiency"]}
{"id": "C76", "title": "J01 is the Boltzmann emission above the gap", "statement": "calculate_J01 is positive, strictly decreasing in the gap, vanishes for large gaps, and differences are the integral of the emission spectrum between the gaps.", "quantifier": "all positive gaps, temperatures and refractive indices", "why_tests_cant": "a statement about an integral", "anchors": ["solcore/analytic_solar_cells/diode_equation.py:calculate_J01"]}
{"id": "C77", "title": "Parametric tunnel junction: usable inverse and no current at zero bias", "statement": "The current is increasing below the peak, the abscissa array given to np.interp for the inverse is non-decreasing, a pn junction is the mirror image of an np one, and no current flows at zero bias.", "quantifier": "all positive parameters and voltage grids", "why_tests_cant": "depends on the parameters; tests use one set", "anchors": ["solcore/analytic_solar_cells/tunnel_junctions.py:parametric_tunnel_junction"]}
{"id": "C78", "title": "Detailed-balance IV curve", "statement": "In Boltzmann mode the current is strictly increasing in voltage, zero at zero bias in the dark and minus the photocurrent in the light when cell and ambient are at one temperature; emission needs absorption; an externally given EQE is accepted.", "quantifier": "every junction with reflectance >= 0 and absorptance in [0,1], every grid", "why_tests_cant": "continuum", "anchors": ["solcore/analytic_solar_cells/detailed_balance.py:iv_detailed_balance", "solcore/analytic_solar_cells/detailed_balance.py:surface_integral"]}
{"id": "C79", "title": "Photocurrent of a neutral region", "statement": "The Green's function mode gives the gradient that any solution of the bvp mode's boundary value problem has at the depletion edge, and no more carriers are collected than generated.", "quantifier": "every generation profile, width, diffusion length, surface recombination velocity, both sides", "why_tests_cant": "the two modes are compared at a few points only, and never for all profiles", "anchors": ["solcore/analytic_solar_cells/depletion_approximation.py:get_J_sc_diffusion_green", "solcore/analytic_solar_cells/depletion_approximation.py:get_J_sc_diffusion"]}
{"id": "C80", "title": "Recombination factor equals Sah's integral", "statement": "factor returns the integral of 1/(z^2+2bz+1) between z1 and z2 whatever the bias.", "quantifier": "every bias, built-in voltage, temperature and pair of lifetimes", "why_tests_cant": "the branches cut the axis at b=1 and b=1e7; tests use the same formulas", "anchors": ["solcore/analytic_solar_cells/depletion_approximation.py:factor"]}
{"id": "C81", "title": "Each junction keeps its own absorption coefficient", "statement": "The alpha function the Beer-Lambert solver stores on a junction without layers computes the absorption coefficient of that junction.", "quantifier": "every cell and junction position", "why_tests_cant": "needs several junctions and a later call of the stored function", "anchors": ["solcore/optics/beer_lambert.py:solve_beer_lambert"]}
{"id": "C82", "title": "Absorbed density is minus the slope of the Poynting vector", "statement": "position_resolved returns an absorption whose integral over any slab of a layer is the difference of the Poynting vector at its faces, and the stored analytic function (fill_in then run) returns that same density.", "quantifier": "every polarisation, index, angle, wavelength, pair of amplitudes and depth", "why_tests_cant": "tests compare a few stacks with a table of reference values", "anchors": ["solcore/absorption_calculator/tmm_core_vec.py:position_resolved", "solcore/absorption_calculator/tmm_core_vec.py:absorp_analytic_fn"]}
{"id": "C83", "title": "A mixed optical layer passes smoothly from data to model", "statement": "The index of a layer that mixes tabulated data with a dielectric model lies between the two, is half way at the mixing point, and tends to the model (direction 0) or to the data (direction 1) with growing wavelength.", "quantifier": "every table, model, mixing point, width, direction and wavelength", "why_tests_cant": "the mixture is only looked at in plots", "anchors": ["solcore/absorption_calculator/transfer_matrix.py:OptiStack._add_raw_nk_layer"]}
{"id": "C85", "title": "Default abscissas of a light source fit the output units", "statement": "spectrum() without abscissas, on a source made without abscissas, gives the source's own spectrum in the requested units.", "quantifier": "every source and output units", "why_tests_cant": "the examples always give abscissas; the internal ones are in nm", "anchors": ["solcore/light_source/light_source.py:LightSource.spectrum"]}
{"id": "C86", "title": "Options changed in a spectrum() call take effect", "statement": "A call spectrum(x, option=value) answers as a new source with the changed options would; options that were not given at construction are not added; unusable options are not silently ignored.", "quantifier": "every source, options and abscissas", "why_tests_cant": "errors are printed and swallowed, so that old results are returned", "anchors": ["solcore/light_source/light_source.py:LightSource._update", "solcore/light_source/light_source.py:LightSource._update_spectrum_function"]}
{"id": "C87", "title": "Laser and black body spectra have the right shape", "statement": "The black body spectrum obeys Planck's law, is positive and grows with temperature and etendue; the laser line is positive, symmetric and highest at its centre; both can be evaluated at their default abscissas.", "quantifier": "every positive temperature, etendue, width, power and wavelength", "why_tests_cant": "continuum", "anchors": ["solcore/light_source/light_source.py:LightSource._get_blackbody_spectrum", "solcore/light_source/light_source.py:LightSource._get_laser_spectrum"]}
{"id": "C88", "title": "The 6-band masses keep the sum of inverse masses", "statement": "The light-hole and split-off masses of the strained 6-band model satisfy the sum rule of the uncoupled bands, along growth and in the plane.", "quantifier": "every strain, splitting and Luttinger parameters at which the formulas are defined", "why_tests_cant": "continuum of parameters", "anchors": ["solcore/quantum_mechanics/kp_QW.py:kp6x6"]}
{"id": "C89", "title": "The critical thickness solves the Matthews-Blakeslee condition", "statement": "critical_thickness returns a thickness that satisfies the Matthews-Blakeslee condition for the layer on the given substrate, or raises an error when there is none.", "quantifier": "all elastic and lattice constants", "why_tests_cant": "continuum; the function has a pole inside the search interval", "anchors": ["solcore/strain_balancing.py:critical_thickness"]}
{"id": "C90", "title": "The eight-band model has the analytic band edges at the zone centre", "statement": "At zero wave vector the bands returned by the 8-band model are the conduction edge and the heavy-hole, light-hole and split-off edges of the strained crystal, each under its own name.", "quantifier": "every strain, band gap, splitting and deformation potential", "why_tests_cant": "eigenvalues are sorted and then relabelled; only checked for one material", "anchors": ["solcore/quantum_mechanics/kp_bulk.py:KPbands"]}
{"id": "C91", "title": "The coupled hole Hamiltonian is symmetric and decouples at zero in-plane wave vector", "statement": "The 4-band well Hamiltonian filled by fill_hamiltonian is symmetric; at zero in-plane wave vector heavy and light holes do not mix and each block is the one-band problem with the growth-direction mass.", "quantifier": "every mesh length, potential profile, Luttinger parameters and block", "why_tests_cant": "all matrix sizes and all parameters", "anchors": ["solcore/quantum_mechanics/kp_QW.py:fill_hamiltonian_holes_4x4", "solcore/quantum_mechanics/kp_QW.py:solve_holes_QW_at_kt_4x4"]}
{"id": "C92", "title": "Wave functions are normalised, ordered and solve the difference equation", "statement": "The wave functions returned with the levels are real, have unit norm on the mesh, belong to the level at the same position, and satisfy the finite-difference Schrodinger equation at every mesh point.", "quantifier": "every mesh, potential, mass profile and every correct eigen-solver", "why_tests_cant": "the solver returns vectors with an arbitrary phase and order", "anchors": ["solcore/quantum_mechanics/potential_utilities.py:tridiag_euler"]}
{"id": "C95", "title": "The parabolic subband solver returns levels of the potential with the in-plane energy", "statement": "Each energy returned at in-plane wave vector kt is a level of the potential plus the in-plane kinetic energy, lies between its bottom and the confinement limit, and a negative quasiconfined keeps every level.", "quantifier": "every mesh, potential, mass profile, kt and eigen-solver", "why_tests_cant": "continuum; scaled variables hide unit errors", "anchors": ["solcore/quantum_mechanics/kp_QW.py:solve_electrons_QW_at_kt_parabolic"]}
{"id": "C96", "title": "guess_dimension answers only for an unambiguous unit", "statement": "guess_dimension returns a dimension exactly when that dimension, and no other, knows the unit; otherwise it raises.", "quantifier": "every table of dimensions and every unit text", "why_tests_cant": "all tables; a unit shared by two dimensions is easily overlooked", "anchors": ["solcore/units_system/units_system.py:UnitsSystem.guess_dimension"]}
{"id": "C93", "title": "The discretised band profile follows the layers", "statement": "structure_to_potentials gives every mesh point the band edges, masses and Luttinger parameters of the layer it lies in (the deeper one on an interface), tilted by the electric field, in each of its modes, and marks the points of the chosen well.", "quantifier": "every structure, mesh size, mode, field and mesh point", "why_tests_cant": "all structures and modes; masks of neighbouring layers overlap", "anchors": ["solcore/quantum_mechanics/structure_utilities.py:structure_to_potentials"]}
{"id": "C97", "title": "Blurring smooths the band profile", "statement": "With the keyword blur, structure_to_potentials returns the profile averaged over that distance.", "quantifier": "every structure and blur length", "why_tests_cant": "the option is not exercised by any test", "anchors": ["solcore/quantum_mechanics/structure_utilities.py:structure_to_potentials", "solcore/smooth.py:smooth"]}
{"id": "C98", "title": "Well widths are varied independently and within bounds", "statement": "vary_well_widths rescales every layer with the label by its own random factor within the given fraction and leaves all others.", "quantifier": "every structure, sequence of random numbers and fraction", "why_tests_cant": "random; depends on whether layers are shared objects", "anchors": ["solcore/quantum_mechanics/structure_utilities.py:vary_well_widths"]}
{"id": "C99", "title": "The energy filter keeps exactly the confined states", "statement": "discard_unconfined_energy keeps, in order and with their wave functions, exactly the states whose energy is at most that of the first mesh point plus quasiconfined.", "quantifier": "every list of states and potential", "why_tests_cant": "all lists", "anchors": ["solcore/quantum_mechanics/potential_utilities.py:discard_unconfined_energy"]}
{"id": "C100", "title": "The confinement filter compares the probability in the wells with the threshold", "statement": "discard_unconfined keeps a state exactly if the share of its probability inside the wells is at least the threshold.", "quantifier": "every structure, mesh, wave function and threshold", "why_tests_cant": "continuum; tests use one structure", "anchors": ["solcore/quantum_mechanics/potential_utilities.py:discard_unconfined", "solcore/quantum_mechanics/structure_utilities.py:locate_regions"]}
{"id": "C101", "title": "A module is a series connection of its cells", "statement": "In every solution of the circuit written by solve_pv_module, all cells carry the module current (through the cell or its bypass diode), the junctions and the series resistance of a cell carry the same current, and the bias is the sum of the cell voltages.", "quantifier": "every number of cells and junctions, every diode characteristic, every solution of Kirchhoff's laws", "why_tests_cant": "needs SPICE; unbounded circuit sizes", "anchors": ["solcore/spice/pv_module_solver.py:solve_pv_module", "solcore/spice/pv_module_solver.py:spice_junction"]}
{"id": "C102", "title": "The dispersion of photocurrents has the given width and never exceeds the ideal value", "statement": "The photocurrent of a cell is its ideal, shaded value reduced by jscSigma times the distance of its draw from the best draw, and never exceeds the ideal value.", "quantifier": "every sequence of draws, shading and width", "why_tests_cant": "random", "anchors": ["solcore/spice/pv_module_solver.py:solve_pv_module"]}
{"id": "C103", "title": "Quasi-3D netlists have unique element names", "statement": "All element names in the netlist of solve_circuit_quasi3D are distinct, also without regard to case.", "quantifier": "every grid size, number of junctions and masks", "why_tests_cant": "unbounded circuit sizes", "anchors": ["solcore/spice/quasi_3D_solver.py:create_node", "solcore/spice/quasi_3D_solver.py:solve_circuit_quasi3D"]}
{"id": "C104", "title": "Quasi-3D results are the voltages SPICE reported for each node", "statement": "Every reported top, bottom and metal voltage is stored at its own junction, pixel and step, every other entry is zero, and the current has the scaling undone.", "quantifier": "every solution and every order of the tables", "why_tests_cant": "needs SPICE; arbitrary tables", "anchors": ["solcore/spice/quasi_3D_solver.py:solve_circuit_quasi3D"]}
{"id": "C105", "title": "Resistors leading away from the contacts and the grid are dead ends", "statement": "The nodes outside the grid and the metal nodes of pixels without contact are connected to at most one element, so that they carry no current.", "quantifier": "every grid and contact mask", "why_tests_cant": "only diagonal contacts reveal the connection", "anchors": ["solcore/spice/quasi_3D_solver.py:create_node", "solcore/spice/quasi_3D_solver.py:solve_circuit_quasi3D"]}
{"id": "C106", "title": "The Fortran IV run visits equally spaced biases up to its limit", "statement": "RunIV(vfin, step) visits the biases 0, step, 2 step, ..., and stops after the last one that does not exceed vfin by more than a tenth of a step.", "quantifier": "every limit and step of the same sign", "why_tests_cant": "needs the Fortran solver; unbounded number of steps", "anchors": ["solcore/poisson_drift_diffusion/DDmodel-current.f95:RunIV", "solcore/poisson_drift_diffusion/DriftDiffusionUtilities.py:calculate_iv"]}
{"id": "C107", "title": "iv_pdd gives each requested voltage the current solved at that voltage", "statement": "At each requested voltage within the limits, the stored current is the current the drift-diffusion solver found at that voltage, with the polarity of the junction and the shunt current added.", "quantifier": "every voltage grid, solver and junction", "why_tests_cant": "needs the Fortran solver; arbitrary grids", "anchors": ["solcore/poisson_drift_diffusion/DriftDiffusionUtilities.py:iv_pdd", "solcore/poisson_drift_diffusion/DriftDiffusionUtilities.py:calculate_iv", "solcore/poisson_drift_diffusion/DriftDiffusionUtilities.py:DumpIV", "solcore/poisson_drift_diffusion/DriftDiffusionUtilities.py:consolidate_iv"]}
{"id": "C108", "title": "The forward bias handed to the solver is limited by the band gap", "statement": "find_voltage_limits never lets the solver go beyond the smallest band gap in forward bias, keeps the reverse bias as requested and never enlarges the requested range.", "quantifier": "every gap, range, polarity and temperature", "why_tests_cant": "needs the Fortran solver", "anchors": ["solcore/poisson_drift_diffusion/DriftDiffusionUtilities.py:find_voltage_limits", "solcore/poisson_drift_diffusion/DriftDiffusionUtilities.py:find_minimum_bandgap"]}
{"id": "C109", "title": "The PDD options are in force when the device is solved", "statement": "Mesh, convergence and recombination options given to equilibrium_pdd are the values of the Fortran variables when Equilibrium is called.", "quantifier": "every option set and previous history of calls", "why_tests_cant": "needs the Fortran module's state", "anchors": ["solcore/poisson_drift_diffusion/DriftDiffusionUtilities.py:equilibrium_pdd", "solcore/poisson_drift_diffusion/DriftDiffusionUtilities.py:SetMeshParameters", "solcore/poisson_drift_diffusion/DriftDiffusionUtilities.py:SetConvergenceParameters", "solcore/poisson_drift_diffusion/DriftDiffusionUtilities.py:SetRecombinationParameters", "solcore/poisson_drift_diffusion/DriftDiffusionUtilities.py:ProcessStructure"]}
{"id": "C110", "title": "Every layer reaches the PDD solver with its own parameters", "statement": "When Equilibrium is called the Fortran module holds exactly the layers of the junction, in order, each with the parameters of its material or the documented defaults, whatever was solved before.", "quantifier": "every junction and previous history of calls", "why_tests_cant": "needs the Fortran module's state", "anchors": ["solcore/poisson_drift_diffusion/DriftDiffusionUtilities.py:ProcessStructure", "solcore/poisson_drift_diffusion/DriftDiffusionUtilities.py:equilibrium_pdd", "solcore/poisson_drift_diffusion/DeviceStructure.py:CreateDeviceStructure"]}
{"id": "C111", "title": "The dark current is recombination plus diffusion plus shunt", "statement": "The dark current of iv_depletion is the sum of the Shockley-Read-Hall current of the depleted region, the diffusion currents that solve the diffusion equation in the two neutral regions, and the shunt current, at a bias kept 1 mV below the built-in voltage; n-on-p junctions are the mirror image of p-on-n junctions; the lifetimes are those of the carriers.", "quantifier": "every voltage, polarity and parameter set", "why_tests_cant": "continuum of inputs; comparison with a differential equation", "anchors": ["solcore/analytic_solar_cells/depletion_approximation.py:iv_depletion", "solcore/analytic_solar_cells/depletion_approximation.py:get_j_dark", "solcore/analytic_solar_cells/depletion_approximation.py:get_Jsrh", "solcore/analytic_solar_cells/depletion_approximation.py:identify_parameters"]}
{"id": "C84", "title": "Partly incoherent structures conserve energy", "statement": "inc_tmm assigns the incident light to reflection, transmission and the layers: the shares returned by inc_absorp_in_each_layer are not negative and add up to one, the inner incoherent transparent layers absorb nothing, and the intensities between the layers are those of the net radiation method with the coherent stacks as joints. At grazing incidence an interface reflects everything.", "quantifier": "every structure of coherent and incoherent passive layers, polarisation, angle and wavelength", "why_tests_cant": "continuum of structures; sum over infinitely many passes", "anchors": ["solcore/absorption_calculator/tmm_core_vec.py:inc_tmm", "solcore/absorption_calculator/tmm_core_vec.py:inc_absorp_in_each_layer", "solcore/absorption_calculator/tmm_core_vec.py:inc_group_layers", "solcore/absorption_calculator/tmm_core_vec.py:interface_R", "solcore/absorption_calculator/tmm_core_vec.py:interface_T"]}
{"id": "C112", "title": "The profile in an incoherent layer contains the light absorbed there", "statement": "The Beer-Lambert profile assumed in an incoherent layer decays with the absorption coefficient and integrates, over the depths asked for, to the light absorbed in the layer, independently of the fraction reaching it.", "quantifier": "every absorption coefficient, depth, fraction and absorbed light", "why_tests_cant": "continuum of inputs; an integral", "anchors": ["solcore/absorption_calculator/tmm_core_vec.py:beer_lambert", "solcore/absorption_calculator/tmm_core_vec.py:inc_position_resolved"]}
{"id": "C113", "title": "A sweep that does not converge at any voltage says so", "statement": "When the Sesame engine converges at no voltage, iv_sesame raises the error written for this case.", "quantifier": "every list of voltages and every engine that returns only NaN", "why_tests_cant": "needs an engine that never converges", "anchors": ["solcore/sesame_drift_diffusion/solve_pdd.py:iv_sesame"]}
{"id": "C114", "title": "The junction depth is the interface where the doping changes sign", "statement": "The junction depths given to the mesh generator are exactly the interfaces at which the doping just below differs in sign from the doping of the layer above at its front.", "quantifier": "every list of layers with constant doping or doping profiles", "why_tests_cant": "only profiles that change sign within a layer reveal the problem", "anchors": ["solcore/sesame_drift_diffusion/process_structure.py:process_structure"]}
{"id": "C115", "title": "Every sweep of Sesame starts near zero and keeps its sign", "statement": "Each call of the engine gets voltages of one sign in order of increasing distance from zero, and together the calls contain exactly the voltages to be solved.", "quantifier": "every list of voltages, both polarities", "why_tests_cant": "all interleavings of positive, negative and zero voltages", "anchors": ["solcore/sesame_drift_diffusion/solve_pdd.py:iv_sesame"]}
{"id": "C116", "title": "Sesame gets the net doping", "statement": "The doping of a layer without a profile is donors minus acceptors.", "quantifier": "every donor and acceptor density", "why_tests_cant": "only compensated layers reveal the problem", "anchors": ["solcore/sesame_drift_diffusion/process_structure.py:process_structure"]}
{"id": "C117", "title": "Surface recombination velocities reach the right surface and carrier", "statement": "The velocities at the front and back are those of the region (n or p) at that surface, specific carrier attributes override those of the region, which override the default of 100 m/s; all are converted to cm/s.", "quantifier": "every combination of attributes and both polarities", "why_tests_cant": "64 combinations with two polarities and a continuum of values", "anchors": ["solcore/sesame_drift_diffusion/process_structure.py:get_srv"]}
{"id": "C118", "title": "Material data for Sesame are complete and consistent", "statement": "Lifetimes missing in a material follow from the diffusion length by L^2 = kT/q mu tau, other optional data default to zero only when the attribute is unknown, and all entries are in Sesame's units.", "quantifier": "every material", "why_tests_cant": "continuum of values; every combination of missing attributes", "anchors": ["solcore/sesame_drift_diffusion/process_structure.py:get_material_parameters", "solcore/sesame_drift_diffusion/process_structure.py:carrier_constants"]}
{"id": "C119", "title": "Quantum efficiencies of Sesame", "statement": "Wavelengths with an absorptance below 1e-5 have efficiency zero and are not solved; the others are solved once each from the last to the first, each with the previous solution as guess, and the internal efficiency times the absorptance is the external one.", "quantifier": "every absorptance spectrum and engine", "why_tests_cant": "stateful engine, all spectra", "anchors": ["solcore/sesame_drift_diffusion/solve_pdd.py:qe_sesame"]}
{"id": "C120", "title": "Alloy spectra at tabulated compositions are the tabulated ones and wavelengths keep their order", "statement": "The optical data interpolated at a tabulated composition are the tabulated data; between compositions the transformed wavelengths increase (so that the linear interpolation on them is meaningful) and the spectrum passes through the interpolated critical points.", "quantifier": "every table with at least two compositions, every spectrum, target composition and grid", "why_tests_cant": "continuum of compositions and wavelengths; only tables whose critical points change order reveal the problem", "anchors": ["solcore/material_system/critical_point_interpolate.py:transform", "solcore/material_system/critical_point_interpolate.py:critical_point_interpolate"]}
{"id": "C121", "title": "Quasi-3D networks have the elements of the cell", "statement": "At every pixel each junction contributes its photocurrent (scaled by the pixel's illumination and area, none under metal), its two diodes and its shunt resistance with the right polarity; neighbouring pixels are joined by the sheet resistances scaled by the aspect ratio; junctions are joined by the resistance of the tunnel junction between them and the last one to ground by the back resistance.", "quantifier": "every grid, masks, number of junctions and attribute values", "why_tests_cant": "needs SPICE; continuum of values and unbounded sizes", "anchors": ["solcore/spice/quasi_3D_solver.py:solve_quasi_3D", "solcore/spice/quasi_3D_solver.py:create_node", "solcore/spice/quasi_3D_solver.py:solve_circuit_quasi3D"]}
{"id": "C122", "title": "Aligned structures have the band edges of their materials", "statement": "After VBO_align every layer of the structure has the valence band offset of its material as valence edge and a conduction edge one gap above; no other layer changes and a second call changes nothing.", "quantifier": "every structure, also with repeated layers", "why_tests_cant": "unbounded structures with shared layer objects", "anchors": ["solcore/quantum_mechanics/heterostructure_alignment.py:VBO_align"]}
{"id": "C123", "title": "The mesh of the potentials resolves every layer", "statement": "Without an explicit step size the mesh covers the structure with at least min_step points, and neighbouring points are closer than every layer's thickness divided by feature_steps - 2.", "quantifier": "every structure with positive thicknesses", "why_tests_cant": "continuum of thicknesses", "anchors": ["solcore/quantum_mechanics/structure_utilities.py:structure_to_potentials"]}
{"id": "C124", "title": "Scaling the quasi-3D network does not change its solutions", "statement": "The network with scaled currents and resistances has the same node voltages as the unscaled one.", "quantifier": "every cell, grid, scaling factor and assignment of voltages", "why_tests_cant": "needs SPICE; continuum of voltages", "anchors": ["solcore/spice/quasi_3D_solver.py:solve_circuit_quasi3D"]}
{"id": "C125", "title": "Materials need their composition and keep the attributes they are given", "statement": "A material is made exactly when the fraction of every variable element is given (KeyError otherwise); every keyword becomes an attribute that overrides the database, the doping defaults to 1, the main fraction is that of the first element, and other parameters are looked up at the composition and temperature of the instance.", "quantifier": "every class, temperature and set of keywords", "why_tests_cant": "continuum of values, every set of keywords", "anchors": ["solcore/material_system/material_system.py:BaseMaterial.__init__", "solcore/material_system/material_system.py:BaseMaterial.__getattr__"]}
{"id": "C126", "title": "Derived attributes of materials are consistent", "statement": "Electron affinity, gap and valence band offset add up to the same constant in all materials without tabulated affinity; the square of the intrinsic density is Nc Nv exp(-Eg/kT), and it grows with temperature; tabulated values of affinity, mobilities and densities of states are honoured.", "quantifier": "every material, composition and temperature", "why_tests_cant": "continuum of compositions and temperatures", "anchors": ["solcore/material_system/material_system.py:BaseMaterial.__getattr__"]}
{"id": "C127", "title": "The drift-diffusion module reports the current that flows", "statement": "Where the continuity equations hold, the current is the same in every element, and the total current put together from recombination, generation and surface terms is that current with the sign of the polarity; it collects no more than what is generated.", "quantifier": "every mesh, material data, potentials and boundary data satisfying the equations", "why_tests_cant": "needs the Fortran module; continuum of states", "anchors": ["solcore/poisson_drift_diffusion/DDmodel-current.f95:FillF", "solcore/poisson_drift_diffusion/DDmodel-current.f95:SolveNonLin"]}
{"id": "C128", "title": "Mass action and equilibrium in the drift-diffusion module", "statement": "The product of the densities is ni^2 exp(Fp - Fn) at every node, recombination has the sign of the split, and with flat quasi-Fermi levels and no light there is no recombination, no flux and the continuity equations hold; solutions in equilibrium mode carry no current.", "quantifier": "every device and potentials", "why_tests_cant": "continuum of states, heterostructures", "anchors": ["solcore/poisson_drift_diffusion/DDmodel-current.f95:Carriers", "solcore/poisson_drift_diffusion/DDmodel-current.f95:Bandedge", "solcore/poisson_drift_diffusion/DDmodel-current.f95:GR_sub", "solcore/poisson_drift_diffusion/DDmodel-current.f95:Equilibrium"]}
{"id": "C129", "title": "Fluxes of the drift-diffusion module are exact for linear potentials", "statement": "If the modified potential is linear in an element and the current constant, the flux of the module is that current, for electrons and holes.", "quantifier": "every element, materials and potentials with a potential step above the series limit", "why_tests_cant": "needs exact solutions of a differential equation; continuum of states", "anchors": ["solcore/poisson_drift_diffusion/DDmodel-current.f95:FillF", "solcore/poisson_drift_diffusion/DDmodel-current.f95:Z"]}
{"id": "C130", "title": "Starting potentials of the drift-diffusion module", "statement": "The densities used for the first potential are neutral and in equilibrium, the starting potentials satisfy the continuity equations of the equilibrium, are zero at the back, neutral at both ends, and smoothing stays within the extreme values.", "quantifier": "every device and doping", "why_tests_cant": "continuum of doping and material data", "anchors": ["solcore/poisson_drift_diffusion/DDmodel-current.f95:InitDevice"]}
{"id": "C131", "title": "The Jacobian is the derivative of the residuals", "statement": "Each entry of the Jacobian of an inner node is the derivative of the residual with respect to the unknown.", "quantifier": "every inner node, unknown, device and potentials", "why_tests_cant": "derivatives over a continuum of states; wrong entries only slow the iteration down", "anchors": ["solcore/poisson_drift_diffusion/DDmodel-current.f95:FillJacobian", "solcore/poisson_drift_diffusion/DDmodel-current.f95:FillF"]}
{"id": "C132", "title": "Corrections of the potentials are limited by the clamp", "statement": "All potentials move by the same fraction of the correction, none by more than the clamp, and a correction is accepted only if the residual decreases.", "quantifier": "every correction and residual norm", "why_tests_cant": "continuum of corrections", "anchors": ["solcore/poisson_drift_diffusion/DDmodel-current.f95:backtracking"]}
{"id": "C133", "title": "Generation conserves photons", "statement": "The photocurrent equals q times the integral of photon flux times absorptance and is at most q times the photon flux; the light is ramped up in decades and full in the last step.", "quantifier": "every mesh, spectrum and absorption profile", "why_tests_cant": "continuum of spectra, unbounded sizes", "anchors": ["solcore/poisson_drift_diffusion/DDmodel-current.f95:Generation", "solcore/poisson_drift_diffusion/DDmodel-current.f95:Illumination", "solcore/poisson_drift_diffusion/DDmodel-current.f95:LightSC"]}
{"id": "C134", "title": "Quantum efficiencies account for every carrier at every wavelength", "statement": "At every wavelength of the list, collected carriers plus those lost in the bulk and at the surfaces equal the absorbed photons.", "quantifier": "every solver behaviour, device, bias light and list of wavelengths", "why_tests_cant": "needs the Fortran module; only the last entry of the list is wrong", "anchors": ["solcore/poisson_drift_diffusion/DDmodel-current.f95:RunIQE", "solcore/poisson_drift_diffusion/DriftDiffusionUtilities.py:DumpQE"]}
{"id": "C135", "title": "The banded solver returns the solution of the linear system", "statement": "For every regular banded matrix in compact storage with at least as many rows as sub-diagonals, whatever the unused corners hold, SolveLin returns the unique vector that the matrix maps to the right hand side; rows are interchanged when necessary and no pivot is replaced.", "quantifier": "every size, bandwidth, regular matrix and right hand side", "why_tests_cant": "unbounded sizes; the Fortran module is not testable in isolation and wrong pivoting shows only for special matrices", "anchors": ["solcore/poisson_drift_diffusion/DDmodel-current.f95:bandec", "solcore/poisson_drift_diffusion/DDmodel-current.f95:bandbks", "solcore/poisson_drift_diffusion/DDmodel-current.f95:SolveLin"]}
{"id": "C136", "title": "The correction of the drift-diffusion module is the Newton step", "statement": "With a regular Jacobian, the correction makes every linearised equation of every node vanish, surfaces included; the residuals decrease along it at the rate of their size, so that a short enough step lowers the norm, and the full step meets the potential conditions at the surfaces exactly. Entries of an earlier device in the corners of the array do not matter.", "quantifier": "every device, mesh, potentials and boundary data with a regular Jacobian", "why_tests_cant": "continuum of states, unbounded mesh", "anchors": ["solcore/poisson_drift_diffusion/DDmodel-current.f95:FillJacobian", "solcore/poisson_drift_diffusion/DDmodel-current.f95:SolveLin", "solcore/poisson_drift_diffusion/DDmodel-current.f95:SolveNonLin"]}
{"id": "C137", "title": "The nonlinear solver ends and says why", "statement": "SolveNonLin ends after at most max(1, nitermax) iterations; code 1 means they are used up, 2 that the norm is below the absolute tolerance, 3 that it changed by less than the relative tolerance; a run is reported as converged exactly if it has reached a tolerance that bounds the residual.", "quantifier": "every iteration, norm, limit and tolerances", "why_tests_cant": "all behaviours of the iteration", "anchors": ["solcore/poisson_drift_diffusion/DDmodel-current.f95:SolveNonLin", "solcore/poisson_drift_diffusion/DDmodel-current.f95:OutputCode"]}
{"id": "C138", "title": "The mesh of the drift-diffusion module resolves every interface", "statement": "The mesh runs from zero to the total thickness, is strictly increasing, has a node at every interface and one 0.1 nm before every inner one, no element larger than the coarse size and, next to the interfaces and surfaces, none larger than the finest size.", "quantifier": "every list of layers thicker than 0.15 nm and all positive element sizes", "why_tests_cant": "continuum of thicknesses and sizes, unbounded number of layers; the tests run one device with the default sizes", "anchors": ["solcore/poisson_drift_diffusion/DDmodel-current.f95:AddLayer", "solcore/poisson_drift_diffusion/DDmodel-current.f95:AddMasterNode", "solcore/poisson_drift_diffusion/DDmodel-current.f95:CreateMesh"]}
{"id": "C139", "title": "Every node of the drift-diffusion module has the data of the layer that contains it", "statement": "A node has the data of the layer that contains it, an interface those of the layer that begins there; between neighbouring nodes the data change only across an element of at most 0.1 nm that ends at an interface, and there from one layer to the next.", "quantifier": "every list of layers and all nodes of the mesh", "why_tests_cant": "continuum of thicknesses", "anchors": ["solcore/poisson_drift_diffusion/DDmodel-current.f95:InitDevice", "solcore/poisson_drift_diffusion/DDmodel-current.f95:AddLayer"]}
{"id": "C140", "title": "Radiative coupling conserves photons", "statement": "The currents that a junction sends to the junctions below are not negative; together with what leaves the last one they are exactly what the junction emits through its back, so they add up to no more than its radiative current. An opaque junction shields all below; a junction that absorbs nothing neither receives nor emits.", "quantifier": "every number of junctions, absorptances between 0 and 1, reflectance, spectrum grid and temperature", "why_tests_cant": "continuum of absorptances, unbounded number of junctions; the tests compare one stack with stored numbers", "anchors": ["solcore/analytic_solar_cells/IV.py:solve_radiative_coupling"]}
{"id": "C141", "title": "Operating points with radiative coupling", "statement": "The voltages and the current returned for every voltage are the operating point: one current through all junctions, including the light from those above, and voltages that add up with the series resistance. It is unique, coupling never lowers the current that the cell delivers, and in the dark at zero voltage there is none.", "quantifier": "every number of junctions, nondecreasing characteristics, coupling, temperature and list of voltages", "why_tests_cant": "continuum of characteristics; a result without coupling in the dark is never looked at", "anchors": ["solcore/analytic_solar_cells/IV.py:solve_radiative_coupling"]}
{"id": "C142", "title": "The atmosphere of SPCTRAL2 only attenuates", "statement": "For every aerosol model that is accepted, the spectrum at the ground is between zero and 1.04 times that outside the atmosphere at every wavelength, and so is the power; it is zero with the sun more than 93.885 degrees from the zenith, and less pressure, turbidity, ozone or water never gives less light.", "quantifier": "every place, time, humidity and amounts of absorbers that are not negative, every table of wavelengths above 120 nm", "why_tests_cant": "continuum of states; the tests run the default object", "anchors": ["solcore/light_source/spectral2.py:calculate_spectrum_spectral2"]}
{"id": "C143", "title": "The sun of SPCTRAL2", "statement": "A higher sun gives more light at every wavelength, whether it is above or below the horizon; the day angle of the first of January is zero and advances by a 365th of a circle per day; further east the sun is further in its course; energies in J are those of the photons and the power per J is that per eV.", "quantifier": "every place, date, time, wavelength and atmosphere", "why_tests_cant": "continuum of places and times; the tests run the default object", "anchors": ["solcore/light_source/spectral2.py:calculate_spectrum_spectral2", "solcore/light_source/spectral2.py:equation_of_time"]}
{"id": "C144", "title": "Sets of SOPRA files are interpolated between their own data", "statement": "Whatever order the folder is listed in and whatever files of the system it holds: at the number of a file the data of that file are returned, between two neighbouring files the linear interpolation of both with the same weights for n and k at all wavelengths, outside the range those of the nearest file. For temperatures the number of a file is its temperature in degrees Celsius.", "quantifier": "every folder of differently numbered files, every list of wavelengths and every temperature or composition", "why_tests_cant": "all folders and continuum of compositions; the tests read one composition and one temperature", "anchors": ["solcore/absorption_calculator/sopra_db.py:load_temperature", "solcore/absorption_calculator/sopra_db.py:load_composition"]}
{"id": "C145", "title": "Materials of the SOPRA library have the optical constants of the library", "statement": "n and k of a material at wavelengths in m are those of its file at the wavelengths in nm, or of its set of files at the composition; the absorption coefficient is 4 pi k over the wavelength, not negative, the same as a function of energy and the same as that of the library. This holds for every material that is found.", "quantifier": "every library, material, composition and list of wavelengths", "why_tests_cant": "the tests read two materials", "anchors": ["solcore/material_system/material_system.py:sopra_material", "solcore/absorption_calculator/sopra_db.py:load_alpha"]}
{"id": "C146", "title": "The radiative recombination coefficient uses the refractive index at the photon energy", "statement": "Without a tabulated value, radiative_recombination is the integral over photon energies of the squared index of refraction and the absorption coefficient at that energy with the Boltzmann factor.", "quantifier": "every table of n and k, gap and temperature", "why_tests_cant": "continuum of tables; the tests do not compute the coefficient", "anchors": ["solcore/material_system/material_system.py:BaseMaterial.__getattr__"]}
{"id": "C147", "title": "The TMM solver accounts for all light once", "statement": "solve_tmm stores in every element of the cell the light absorbed in its own layers, times one minus the shading; reflected, absorbed and transmitted light add up to one minus the shading, none is negative, and the transmitted light is what reaches the substrate (or the absorber that stands for a back that does not reflect). Exactly the layers thicker than ten times the longest wavelength are switched to the incoherent treatment.", "quantifier": "every cell, shading, angle of incidence, polarisation, list of wavelengths and coherency list", "why_tests_cant": "continuum of indices, thicknesses and angles, unbounded number of elements; the tests compare one cell with stored numbers", "anchors": ["solcore/optics/tmm.py:solve_tmm", "solcore/absorption_calculator/transfer_matrix.py:calculate_rat"]}
{"id": "C148", "title": "The generation profile is the interpolated absorption profile", "statement": "diff_absorption is, between two depths of the grid, the linear interpolation of the calculated profile per metre and times one minus the shading; it is never negative, and integrated over the grid it gives the trapezoidal integral of the profile. An element sees it from its own front surface to its own width and nothing beyond.", "quantifier": "every grid of depths, every profile, shading, offset, width and depth", "why_tests_cant": "continuum of depths and profiles; the tests look at the default grid", "anchors": ["solcore/optics/tmm.py:calculate_absorption_tmm", "solcore/optics/tmm.py:absorbed"]}
{"id": "C149", "title": "The absorption profile integrates to the absorbed light", "statement": "The profile of calculate_absorption_profile integrated over the depth of a layer is the light absorbed in the layer as reported by calculate_rat, or zero if that is below the threshold; over the whole structure it is A = 1 - R - T.", "quantifier": "every stack of layers, wavelength, angle, polarisation and threshold", "why_tests_cant": "continuum of stacks; the tests compare one stack with stored numbers", "anchors": ["solcore/absorption_calculator/transfer_matrix.py:calculate_absorption_profile", "solcore/absorption_calculator/transfer_matrix.py:calculate_rat"]}
{"id": "C150", "title": "The absorption profile of a partly incoherent stack integrates to the absorbed light", "statement": "With incoherent layers in the stack, the profile of calculate_absorption_profile is computed at every position asked for; in each layer it integrates to the light absorbed in that layer as reported by calculate_rat, is zero where the layer absorbs less than zero_threshold, and does not depend on the other positions asked for.", "quantifier": "every stack, wavelength, angle, polarisation, threshold and list of positions", "why_tests_cant": "continuum of stacks and positions; the tests compare one stack with stored numbers", "anchors": ["solcore/absorption_calculator/tmm_core_vec.py:inc_position_resolved", "solcore/absorption_calculator/tmm_core_vec.py:inc_find_absorp_analytic_fn", "solcore/absorption_calculator/transfer_matrix.py:calculate_absorption_profile"]}
{"id": "C151", "title": "The dispersion formulas of refractiveindex.info", "statement": "For each of the nine formula types, the index at a wavelength in the range of the entry is the one the published formula defines with all the coefficients of the entry; outside the range an error is raised.", "quantifier": "every list of coefficients, range and wavelength", "why_tests_cant": "unbounded number of coefficients; no test evaluates a formula", "anchors": ["solcore/material_data/refractiveindex_info_DB/dbmaterial.py:FormulaRefractiveIndexData.get_refractiveindex"]}
{"id": "C152", "title": "The refractiveindex.info database returns the data of the page asked for", "statement": "Whatever other files the database is made from, the n and k of a page are those of its own file in order of wavelength, a formula being stored at the requested number of equally spaced points; at the wavelengths of the file a material made from the page returns exactly its n and k; a page that is not there gives n = 1 and k = 0.", "quantifier": "every list of files, page, number of points and wavelength", "why_tests_cant": "unbounded number of files and rows, unreadable files in between; the tests need a download", "anchors": ["solcore/material_data/refractiveindex_info_DB/dboperations.py:create_sqlite_database", "solcore/material_data/refractiveindex_info_DB/dboperations.py:Database.get_material", "solcore/material_data/refractiveindex_info_DB/dbmaterial.py:DBMaterial", "solcore/absorption_calculator/nk_db.py:nkdb_load_n", "solcore/material_system/material_system.py:n_interpolated"]}
{"id": "C153", "title": "download_db leaves a usable database", "statement": "After download_db() the database of the server is in place unless the user declines to replace the one that is there, in which case that one is kept; a download that fails changes nothing.", "quantifier": "every initial state of configuration, folder and file, answer of the user and reply of the server", "why_tests_cant": "states of the disk and failures of the server that tests do not set up", "anchors": ["solcore/absorption_calculator/nk_db.py:download_db"]}
{"id": "C154", "title": "Models of the dielectric constant are sums of their oscillators and absorb", "statement": "dielectric_constants is e_inf plus the published expressions of the oscillators in the list, in any order, one value per wavelength, for wavelengths in nm as in metres; with amplitudes and widths that are not negative its imaginary part is not negative, and n_and_k is the square root of it with n and k not negative. add_oscillator and remove_oscillator edit the list as their names say.", "quantifier": "every list of oscillators, their parameters and every array of wavelengths", "why_tests_cant": "continuum of parameters, unbounded number of oscillators; the tests check single values", "anchors": ["solcore/absorption_calculator/dielectric_constant_models.py:DielectricConstantModel", "solcore/absorption_calculator/dielectric_constant_models.py:Lorentz", "solcore/absorption_calculator/dielectric_constant_models.py:Cauchy"]}
{"id": "C155", "title": "The real part of the dielectric constant follows from the imaginary part", "statement": "Epsi1 is the Kramers-Kronig integral of the imaginary part over its range: linear, positive below the absorption and negative above it; the real parts of the Gauss and segment oscillators are this integral of their imaginary parts, at every wavelength.", "quantifier": "every imaginary part, range and energy", "why_tests_cant": "continuum of functions and energies; the tests compare four numbers", "anchors": ["solcore/absorption_calculator/kramers_kronig.py:Epsi1", "solcore/absorption_calculator/dielectric_constant_models.py:Gauss", "solcore/absorption_calculator/dielectric_constant_models.py:PolySegment"]}
{"id": "C156", "title": "External optics share out the light once", "statement": "solve_external_optics reports reflected, absorbed and transmitted light that add up to one minus the shading; every element sees the external profile from its own offset to its own width, so that what the elements generate is what the cell absorbs; the external reflectance is a function of the wavelength, as documented; a cell without the external data is refused.", "quantifier": "every profile, reflectance, shading, grid of positions and list of elements", "why_tests_cant": "continuum of profiles, unbounded number of elements; the tests use one profile without shading", "anchors": ["solcore/optics/external_optics.py:solve_external_optics", "solcore/optics/external_optics.py:absorbed"]}
{"id": "C157", "title": "The RCWA optics conserve energy", "statement": "For a solver whose incident wave is normalised, reflected, absorbed and transmitted light add up to one and no layer absorbs a negative amount; every layer gets the drop of the power flow across it; unpolarised light is the mean of both polarisations, under whatever name; the depth profile is the slope of the power flow; solve_rcwa gives every element the sum over its own layers, times one minus the shading.", "quantifier": "every power flow of the solver, structure, angle, index in front and polarisation", "why_tests_cant": "continuum of power flows, unbounded number of layers; the tests need S4 and are skipped without it", "anchors": ["solcore/absorption_calculator/rigorous_coupled_wave.py:calculate_rat_rcwa", "solcore/absorption_calculator/rigorous_coupled_wave.py:rcwa_absorption_per_layer", "solcore/absorption_calculator/rigorous_coupled_wave.py:RCWA_wl", "solcore/absorption_calculator/rigorous_coupled_wave.py:rcwa_position_resolved", "solcore/optics/rcwa.py:solve_rcwa"]}
{"id": "C158", "title": "The S4 options of a call are those given to the call", "statement": "calculate_rat_rcwa hands S4 the options given by the user and the documented default for every other one, whatever has been calculated before.", "quantifier": "every session of calls with and without options", "why_tests_cant": "histories of calls of any length", "anchors": ["solcore/absorption_calculator/rigorous_coupled_wave.py:calculate_rat_rcwa", "solcore/absorption_calculator/rigorous_coupled_wave.py:initialise_S"]}
{"id": "C159", "title": "S4 is told the structure as it is", "statement": "Layers are handed over in order, with their widths and the square of the complex index of their materials, and every shape in the layer that has it and with the constants of its own material, whatever the order in which the materials are listed.", "quantifier": "every structure, geometry, set of materials and wavelength", "why_tests_cant": "orders of sets vary from run to run, unbounded number of shapes", "anchors": ["solcore/absorption_calculator/rigorous_coupled_wave.py:initialise_S", "solcore/absorption_calculator/rigorous_coupled_wave.py:necessary_materials"]}
{"id": "C160", "title": "The numbers that SPICE prints come back as they stand", "statement": "solve_circuit with raw=False returns, for every column after the first of the printed table, its values in the order of the rows, whatever other lines are printed; solve_pv_module returns every point of the printed curve.", "quantifier": "every output made of rows and other lines", "why_tests_cant": "outputs of any length, with headings and messages of all kinds; the engine is an external program", "anchors": ["solcore/spice/spice.py:solve_circuit", "solcore/spice/pv_module_solver.py:solve_pv_module"]}
{"id": "C161", "title": "Circuits are solved by the program that was asked for", "statement": "solve_circuit runs the engine given; without one, the environment variable SOLCORE_SPICE or else the configured location; without any it is refused with SpiceSolverError. The old names of the function do the same.", "quantifier": "every session of changes of the configuration and calls", "why_tests_cant": "the default is fixed when the module is imported; tests set one configuration", "anchors": ["solcore/spice/spice.py:solve_circuit", "solcore/spice/spice.py:get_raw_from_spice", "solcore/spice/spice.py:send_to_spice"]}
{"id": "C162", "title": "Differential evolution returns the best individual and its history", "statement": "DE.solve returns the best individual and fitness of the last step looked at, and the best individual, best fitness and mean fitness at the end of every generation, in order; the fitness returned is at most every one in the history if the algorithm never gets worse.", "quantifier": "every sequence of steps of the algorithm", "why_tests_cant": "random algorithm of any number of steps; arrays shared with the algorithm", "anchors": ["solcore/optimization/differential_evolution.py:DE.solve"]}
{"id": "C163", "title": "Parallel and sequential evolution agree", "statement": "With the same seed PDE returns what DE returns, for every number of processes, and can be used again.", "quantifier": "every algorithm, objective and number of processes", "why_tests_cant": "second use of an object after the pool has been terminated", "anchors": ["solcore/optimization/differential_evolution.py:PDE"]}
{"id": "C94", "title": "Quantum well absorption is a staircase with excitons below its edges", "statement": "The absorption of every pair of states is zero below its transition and proportional to the overlap, at most one for normalised states; the sum over all states, times the energy, never falls with the energy; excitons are lines of the width given below their transition by their binding energy; calc_alpha is not negative, has one value for each energy and is the sum of both polarisations at the angle given; calc_emission is that of the absorption at the voltage and temperature given.", "quantifier": "every set of states, energies, masses, widths, angle and voltage", "why_tests_cant": "continuum of energies and unbounded number of states; no test covers the module", "anchors": ["solcore/absorption_calculator/absorption_QW.py:alpha_c_hh_TE", "solcore/absorption_calculator/absorption_QW.py:alpha_exciton_ehh_TE", "solcore/absorption_calculator/absorption_QW.py:calc_alpha", "solcore/absorption_calculator/absorption_QW.py:calc_emission"]}
{"id": "C164", "title": "k points are inside the first Brillouin zone", "statement": "kvector returns the number of points asked for, on a straight line from the centre at equal distances, all inside the first Brillouin zone of the face-centred cubic lattice for fractions up to 1, where the last one is on its boundary; only the direction of the vector given counts. All critical points but the centre are on the boundary.", "quantifier": "every direction, lattice constant, fraction and number of points", "why_tests_cant": "continuum of directions; the tests use one", "anchors": ["solcore/crystals.py:kvector", "solcore/crystals.py:brillouin_critical_points"]}
{"id": "C165", "title": "Walks through the Brillouin zone", "statement": "traverse_brillouin visits the critical points in the order given with the number of steps given for each part; the graph coordinate is the distance walked as a fraction of the whole, from 0 to 1, and the ticks are at the critical points with their labels.", "quantifier": "every order of critical points, lattice constant and number of steps", "why_tests_cant": "unbounded orders; no test covers the function", "anchors": ["solcore/crystals.py:traverse_brillouin"]}
{"id": "C166", "title": "A quantum well unit knows its barriers, wells and interlayers", "statement": "QWunit makes its first and last layer barriers, layers called well in any of the spellings wells, and all others interlayers; it counts the wells and adds up their widths; without a substrate or with fewer than three layers it is refused.", "quantifier": "every list of layers and keywords, with layers that occur several times", "why_tests_cant": "unbounded lists; layers are shared objects that are changed", "anchors": ["solcore/poisson_drift_diffusion/QWunit.py:QWunit.__init__"]}
{"id": "C167", "title": "Averages over layers are those of the layers", "statement": "get_average_params returns the mean of a quantity over each layer, between its extremes in the layer; get_probability_per_layer returns the probability to find a carrier in each layer, not negative and with a sum of at most that of the whole.", "quantifier": "every grid, quantity and list of widths", "why_tests_cant": "continuum of grids and of functions on them", "anchors": ["solcore/poisson_drift_diffusion/QWunit.py:QWunit.get_average_params", "solcore/poisson_drift_diffusion/QWunit.py:QWunit.get_probability_per_layer"]}
{"id": "C168", "title": "Confinement opens the gap", "statement": "RecalculateBandEdges sets gap, affinity, masses and densities of states of every layer under strain; the effective gap is never smaller and the effective affinity never greater than that of the strained bulk, the difference at most the distance of the ground states from the band edges in the layer, and zero where the band edges are outside the ground states. Solving again gives the same.", "quantifier": "every structure, solution of the Schrodinger equation and mode", "why_tests_cant": "every potential on every grid; state kept in shared materials", "anchors": ["solcore/poisson_drift_diffusion/QWunit.py:QWunit.RecalculateBandEdges", "solcore/poisson_drift_diffusion/QWunit.py:QWunit.RecalculateKP"]}
{"id": "C169", "title": "Density of states of the layers of a unit", "statement": "RecalculateDensityOfStates gives every layer the bulk density cut down by the depth of its well and what the levels put into it; it is not negative, barriers have that of the bulk, and all layers together get no more than the occupation of the levels.", "quantifier": "every structure and set of levels and states", "why_tests_cant": "unbounded number of levels; materials shared by layers", "anchors": ["solcore/poisson_drift_diffusion/QWunit.py:QWunit.RecalculateDensityOfStates"]}
{"id": "C170", "title": "Absorption of the layers of a unit", "statement": "CalculateAbsorption gives barriers and interlayers the absorption of the bulk up to the edge of the barriers and none beyond it, wells that of the confined levels by the share of their width and that of the bulk above the edge; the unit has the sum of all; use_Adachi selects the model of the bulk; energies and wavelengths are converted into each other.", "quantifier": "every structure, grid of wavelengths and solution", "why_tests_cant": "every grid and edge; materials shared by layers", "anchors": ["solcore/poisson_drift_diffusion/QWunit.py:QWunit.CalculateAbsorption", "solcore/poisson_drift_diffusion/QWunit.py:QWunit.solve"]}
{"id": "C171", "title": "Effective layers for the drift-diffusion solver", "statement": "GetEffectiveQW returns the layers of the unit as often as asked for, with materials of the effective gap, affinity, intrinsic density and absorption and a radiative coefficient that is not negative; with or without absorption, and any number of times with the same result.", "quantifier": "every structure, solution, grid of wavelengths and number of repetitions", "why_tests_cant": "unbounded repetitions; the materials handed over are changed", "anchors": ["solcore/poisson_drift_diffusion/QWunit.py:QWunit.GetEffectiveQW"]}
{"id": "C172", "title": "Ellipsometric parameters come from the reflection amplitudes", "statement": "Every entry of the arrays psi and Delta of calculate_ellipsometry comes from the reflection amplitudes rs and rp of the stack at its own wavelength and angle: psi is in [0, 90), Delta in [180, 360], and tan(psi) exp(i Delta) is rp/rs. At normal incidence psi is 45 and Delta 180 for every structure that reflects. The deprecated keyword wins over no_back_reflection, and the flag used is stored in the stack.", "quantifier": "every stack, list of wavelengths and of angles, both flags", "why_tests_cant": "continuum of refractive indices, thicknesses and angles; the test compares one stack", "anchors": ["solcore/absorption_calculator/tmm_core_vec.py:ellips", "solcore/absorption_calculator/transfer_matrix.py:calculate_ellipsometry"]}
{"id": "C173", "title": "Detailed-balance curve with Planck's law", "statement": "In the full Planck mode the detailed-balance IV curve has a number for every voltage; the current rises strictly with the voltage up to 1 meV below the gap and is constant from there on; at zero bias and equal temperatures it is minus the photocurrent; it rises at least as much as with Boltzmann's approximation.", "quantifier": "every absorptance, gap, temperature and list of voltages", "why_tests_cant": "continuum of voltages and absorptances; the tests do not use the mode", "anchors": ["solcore/analytic_solar_cells/detailed_balance.py:iv_detailed_balance"]}
{"id": "C174", "title": "The SMARTS input file has the cards of its options", "statement": "build_smarts_file writes exactly the cards that the flags among the options ask for, in order and one to a line, each with the values of its options; it does so if and only if every flag chooses one of its alternatives and every option of a card in the file is given. A missing option is a KeyError, other failures are flags that choose nothing. Options that no card in the file needs have no effect, and braces in a value are kept as they are.", "quantifier": "every dictionary of options, with integers, decimals and texts", "why_tests_cant": "the flags have thousands of combinations, each with other options; the tests do not cover the function", "anchors": ["solcore/light_source/smarts.py:build_smarts_file", "solcore/light_source/smarts.py:get_default_smarts_object"]}
{"id": "C175", "title": "Calculated solar spectra use the options given", "statement": "A SMARTS or SPECTRAL2 light source has every option given and the default one of every other; changing options in a call of spectrum is making the source with them. Its spectrum is the output asked for at the wavelengths of the program and zero outside, with the power of that output. An unknown output or a missing option gives a message and no spectrum, a program that fails or is not there an exception.", "quantifier": "every dictionary of options, program and output of the program", "why_tests_cant": "arbitrary options and outputs; the program is not available to the tests", "anchors": ["solcore/light_source/light_source.py:LightSource._get_smarts_spectrum", "solcore/light_source/light_source.py:LightSource._get_spectral2_spectrum", "solcore/light_source/light_source.py:LightSource._update", "solcore/light_source/smarts.py:calculate_spectrum_smarts", "solcore/light_source/smarts.py:skipper"]}
{"id": "C176", "title": "Singletons have one instance", "statement": "A class with the metaclass Singleton has at most one instance in any program: the first call that succeeds makes it, every later one returns it whatever its arguments and changes nothing, and a call that fails leaves none. Methods tagged with breakout become functions of the namespace given to breakoutFunctions and act on the one instance, which is made when needed; nothing else in the namespace changes.", "quantifier": "every sequence of calls of classes and functions, every class and namespace", "why_tests_cant": "unbounded sequences; instances live as long as the process", "anchors": ["solcore/singleton.py:Singleton.__call__", "solcore/singleton.py:Singleton.breakoutFunctions.__call__", "solcore/singleton.py:Singleton.Redirect_to_singleton_method.__call__"]}
{"id": "C177", "title": "Texts of an alloy name its fraction", "statement": "plain_string, html_string and latex_string of a material are its name with the fraction of its element, in three decimals, behind the element, or without the element for a fraction of zero; materials without composition are their name.", "quantifier": "every name, element and fraction", "why_tests_cant": "unbounded names; no test covers the functions", "anchors": ["solcore/material_system/material_system.py:BaseMaterial.latex_string", "solcore/material_system/material_system.py:BaseMaterial.plain_string", "solcore/material_system/material_system.py:BaseMaterial.html_string"]}
{"id": "C178", "title": "Adachi's optical constants belong to their wavelengths", "statement": "create_adachi_alpha gives n, k and alpha of Adachi's dielectric constant at every wavelength or energy asked for, in the order asked for: n^2 - k^2 is its real part, 2 n k its absorptive part, alpha the coefficient of k; all are at least 1e-10. Nothing is absorbed below all gaps, and something above the direct one. Every parameter is that of the material, its fraction and temperature.", "quantifier": "every material, grid of wavelengths or energies and temperature", "why_tests_cant": "continuum of energies and parameters", "anchors": ["solcore/absorption_calculator/adachi_alpha.py:create_adachi_alpha"]}
{"id": "C179", "title": "Quantum efficiency of stacks of junctions after Nelson", "statement": "spectral_response_all_junctions gives each junction the light behind everything above its emitter; the current of each neutral region is that of the carriers collected at its edge, and at every energy the quantum efficiencies are not negative and, of all junctions together with the transmitted light, no more than what enters. Roles of the layers decide about the regions or are refused; the depleted regions are neutral and take up the built-in voltage less the applied one; the dark currents vanish without voltage. Reflected, lost and transmitted light and the efficiencies account for all light, at every energy and voltage.", "quantifier": "every stack, spectrum, grid of energies and voltage", "why_tests_cant": "continuum of widths, absorption coefficients and diffusion lengths; no test covers the function", "anchors": ["solcore/analytic_solar_cells/QE.py:spectral_response_all_junctions", "solcore/analytic_solar_cells/QE.py:calculate_junction_sr", "solcore/analytic_solar_cells/QE.py:get_j_top", "solcore/analytic_solar_cells/QE.py:get_j_bot"]}
{"id": "C180", "title": "Bands of quantum wells are the levels at every wave vector", "statement": "solve_bandstructure_QW gives kpoints wave vectors from 0 to krange and, for every electron and hole level confined at k = 0, one band with the energy and wave function of the level at every wave vector. A hole band is heavy if its heavy component at k = 0 is not small. Levels are confined below their barriers, upper and lower hole levels are in the order of their energies, wave functions are normalised, and schrodinger returns the values at k = 0 of all bands, solving both blocks if there is a field.", "quantifier": "every structure, number of levels and wave vectors and every eigenvalue solver", "why_tests_cant": "all eigenvalue solvers and structures; orders of the eigenvalues that the solver happens to return", "anchors": ["solcore/quantum_mechanics/kp_QW.py:solve_holes_QW_at_kt_4x4", "solcore/quantum_mechanics/kp_QW.py:band_sorting", "solcore/quantum_mechanics/kp_QW.py:solve_bandstructure_QW", "solcore/quantum_mechanics/high_level_kp_QW.py:schrodinger"]}
{"id": "C181", "title": "Bulk bands and effective masses belong together", "statement": "KPbands gives the wave numbers of a line from the zone centre to inside the first zone and the eight energies of the Hamiltonian at each of them in order, starting with the band edges. The masses fitted to parabolic bands are those of the parabolas, positive and named like the edges; more weight is given to points near the centre. In-plane masses are means over directions in the plane. For an unstrained, isotropic material without coupling kp8x8_bulk returns the parameters it was given. kp_bands gives the energies at the wave vector asked for, and masses whose parabolas pass through the energies at the centre and at the fit point.", "quantifier": "every material, host, direction, number of points, eigenvalue solver and least-squares fit", "why_tests_cant": "continuum of material parameters and directions; the tests compare one material with stored numbers", "anchors": ["solcore/quantum_mechanics/kp_bulk.py:KPbands", "solcore/quantum_mechanics/kp_bulk.py:fit_effective_masses", "solcore/quantum_mechanics/kp_bulk.py:average_inplane_effective_mass", "solcore/quantum_mechanics/kp_bulk.py:kp8x8_bulk", "solcore/quantum_mechanics/kp_bulk.py:kp_bands"]}
{"id": "C182", "title": "New materials are added to the database", "statement": "After create_new_material without error the material exists with the n and k data and the parameters of the files given, in this session and the next one. It asks exactly for names that exist and overwrite is not set, and without the answer y nothing changes. Other materials, their data, their parameters and all other files stay as they are; overwriting a material replaces its data and parameters.", "quantifier": "every configuration, set of files, name, parameter file and answer", "why_tests_cant": "the function writes into the user's folder and configuration, so the tests do not call it; unbounded names and files", "anchors": ["solcore/material_system/create_new_material.py:create_new_material", "solcore/material_system/material_system.py:MaterialSystem.read", "solcore/material_system/material_system.py:MaterialSystem.parameterised_material", "solcore/config_tools.py:SolcoreConfig.__setitem__"]}
{"id": "C183", "title": "Ellipsometry files are read point by point", "statement": "EllipsometryData reads a file into the points of every angle, in the order of the file, with wavelengths in micrometres whatever the unit of the file, and every angle once. append_data adds the points of another file, in the order of wavelengths; angles of either file alone keep their points, and depolarisations are added likewise.", "quantifier": "every file of units, points, depolarisations and comments, and every sequence of angles", "why_tests_cant": "unbounded files; no test reads a file", "anchors": ["solcore/data_analysis_tools/ellipsometry_analysis.py:EllipsometryData._load_data", "solcore/data_analysis_tools/ellipsometry_analysis.py:EllipsometryData.append_data"]}
{"id": "C184", "title": "Fits to ellipsometry data vary the variables asked for", "statement": "get_variables and update_variables of EllipsometryFitter are the values of the variables in the order of vars: updating sets them and nothing else, and setting what is read changes nothing. mse is the error of the stack with the variables given: not negative, zero exactly for a stack that meets all points, weighted with the errors of the measurement. fit leaves the variables at the result of the minimiser. Correlations are one on the diagonal and between -1 and 1.", "quantifier": "every stack, list of variables, values, data and sequence of trials of the minimiser", "why_tests_cant": "states of caches over sequences of calls; continuum of values; no test fits a stack", "anchors": ["solcore/data_analysis_tools/ellipsometry_analysis.py:EllipsometryFitter.update_variables", "solcore/data_analysis_tools/ellipsometry_analysis.py:EllipsometryFitter.get_variables", "solcore/data_analysis_tools/ellipsometry_analysis.py:EllipsometryFitter.mse", "solcore/data_analysis_tools/ellipsometry_analysis.py:EllipsometryFitter.fit", "solcore/data_analysis_tools/ellipsometry_analysis.py:EllipsometryFitter.calculate_uncertainties", "solcore/absorption_calculator/transfer_matrix.py:np_cache"]}
{"id": "C185", "title": "Sums of oscillators of Custom_CPPB follow their parameters", "statement": "Material_Params returns the entries of the section of a material, the last one of each name, or the named ones alone, and raises for a material or a name that is missing. Broad lies between zero and its parameter and falls away from the critical point. Each oscillator has its closed form and an imaginary part that is not negative. eps_calc is the sum of the components and eps1_inf of the first oscillator, nk_calc its square root with n and k not negative and alpha_calc 4 pi k over the wavelength. Evaluating a structure twice gives the same, and calculating one leaves the parameters of other materials alone. Arguments of one oscillator affect it only.", "quantifier": "every file of parameters, list of oscillators, dictionary of parameters and energies", "why_tests_cant": "unbounded structures and files; sharing of dictionaries; no test evaluates more than one structure", "anchors": ["solcore/absorption_calculator/cppm/Custom_CPPB.py:Custom_CPPB.Material_Params", "solcore/absorption_calculator/cppm/Custom_CPPB.py:Custom_CPPB.eps_calc", "solcore/absorption_calculator/cppm/Custom_CPPB.py:Custom_CPPB.nk_calc"]}
{"id": "C186", "title": "Photocurrents and quantum efficiencies of the depletion approximation count the carriers of the junction", "statement": "The neutral emitter, the depleted region and the neutral base tile the junction. No neutral region gives more carriers than are generated in it, the efficiencies do not depend on the flux used to calculate them and add up, the internal efficiency is the external one over the absorption. Light shifts the current of every voltage by the photocurrents, in the direction of power; these are the efficiencies times the light when zero is among the voltages. Parameters come from the junction or else from the region where the carriers are in minority. Depleted junctions collect every carrier, and the current at a voltage does not depend on which other voltages are asked for.", "quantifier": "every junction, material, list of voltages and continuous generation", "why_tests_cant": "continuum of profiles and voltages; tests compare single cells with stored numbers", "anchors": ["solcore/analytic_solar_cells/depletion_approximation.py:iv_depletion", "solcore/analytic_solar_cells/depletion_approximation.py:qe_depletion", "solcore/analytic_solar_cells/depletion_approximation.py:identify_parameters"]}
{"id": "C187", "title": "The absorption of a junction on its own obeys Beer and Lambert", "statement": "calculate_absorptance_PDD_and_DA returns a function of depths giving, at every depth, the absorption coefficient of the layer there times the light that reaches it, zero behind the junction, whose integral over the junction is the light not transmitted, and the transmitted light; absorbed and transmitted light add up to the light that enters. calculate_absorptance_DB returns the absorptance times the light interpolated between the wavelengths given, and the light transmitted at these.", "quantifier": "every junction of layers of positive width, fraction of light, list of depths and wavelengths", "why_tests_cant": "continuum of depths; no test calls these functions", "anchors": ["solcore/optics/beer_lambert.py:calculate_absorptance_PDD_and_DA", "solcore/optics/beer_lambert.py:calculate_absorptance_DB"]}
{"id": "C188", "title": "Accessors of the configuration and their deprecated forms agree", "statement": "units, parameters, materials, spice and smarts of the configuration set a path and return it with the folder of the package put in; without a path they change nothing and return the path set before; without a name they list the sources. Setting is saved, told to the observers and changes no other option. Each deprecated function of config_tools does what its documentation says replaces it. Reading an option by pair and through its section gives the same.", "quantifier": "every configuration, section, name, path and deprecated function", "why_tests_cant": "unbounded configurations; four of the deprecated functions are called by no test", "anchors": ["solcore/config_tools.py:SolcoreConfig.units", "solcore/config_tools.py:SolcoreConfig.spice", "solcore/config_tools.py:SolcoreConfig.__getitem__", "solcore/config_tools.py:add_source", "solcore/config_tools.py:set_location_of_spice", "solcore/config_tools.py:check_user_config"]}
{"id": "C189", "title": "The picker of critical points keeps one point per curve and saves what was confirmed", "statement": "Whatever is clicked and pressed in the window, every confirmed critical point has exactly one point per composition, the one being picked at most that, and the curve offered is the next one. Unless snapping is switched off every point lies on the curve of its composition. Backspace undoes a click. Saving never raises and writes for each composition its file and all confirmed points, numbered from one, in metres. The compositions are those in the names of the files, each once, in order.", "quantifier": "every set of curves and files and every sequence of clicks and keys", "why_tests_cant": "unbounded sequences of events; there are no tests of the window", "anchors": ["solcore/material_system/critical_point_picker.py:CPPicker.onpick", "solcore/material_system/critical_point_picker.py:CPPicker.onkey", "solcore/material_system/critical_point_picker.py:CPPicker.save", "solcore/material_system/critical_point_picker.py:CPPicker.gather_files"]}
{"id": "C190", "title": "The earlier manager of sources keeps its database in step with its sources", "statement": "After any calls each name of SourceManagedClassDeprecated stands for the path last given for it since it was last removed. After read() and after a removal with re-reading the database has exactly what the present sources define, the last one winning. The same holds after every sequence of additions of new names, removals with re-reading and readings of everything. Unknown names raise KeyError and change nothing.", "quantifier": "every set of files and every sequence of calls", "why_tests_cant": "unbounded histories; the class is not used by any test", "anchors": ["solcore/source_managed_class.py:SourceManagedClassDeprecated.add_source", "solcore/source_managed_class.py:SourceManagedClassDeprecated.remove_source", "solcore/source_managed_class.py:SourceManagedClassDeprecated.read"]}
{"id": "C191", "title": "The data of alloys are loaded as the picker saved them", "statement": "The composition of a file is the number in its name. load_data_from_directory returns, for each composition saved by the picker, the table of its file and exactly the confirmed critical points of its curve under their numbers.", "quantifier": "every sequence of clicks and keys, set of files with distinct compositions, and names with one number", "why_tests_cant": "unbounded sets of points and names; the tests load one folder and never use the picker", "anchors": ["solcore/material_system/critical_point_interpolate.py:load_data_from_directory", "solcore/material_system/critical_point_picker.py:CPPicker.guess_fraction", "solcore/material_system/critical_point_picker.py:CPPicker.save"]}
{"id": "C192", "title": "Data drawn for quantum wells are what the calculation gave", "statement": "The local density of states at every energy and position is the sum over the levels of the two-dimensional density of states of the mass averaged with the probability, times a line of unit area around the level, times the probability; the mass is between the masses of the layers, the energies cover the levels with the margin on both sides, no density is negative. Wavefunctions are drawn around their level, trimmed, in order, spanning the scale, upright. Band diagrams are flat in every layer at its edges. Options given win over the defaults and concern one graph.", "quantifier": "every set of levels, wavefunctions, masses, meshes, layers and options", "why_tests_cant": "continuum of functions; state of the module between calls; there are no tests of these functions", "anchors": ["solcore/quantum_mechanics/graphics.py:LDOS1D_e", "solcore/quantum_mechanics/graphics.py:LDOS1D_h", "solcore/quantum_mechanics/graphics.py:calculate_in_plane_masses", "solcore/quantum_mechanics/graphics.py:prepare_wavefunction_data", "solcore/quantum_mechanics/graphics.py:structure_graph", "solcore/quantum_mechanics/graphics.py:split_schrodinger_graph"]}
{"id": "C193", "title": "Graphs show all data with their colours and labels", "statement": "A graph has the data of everything it is given, however nested, in order. A colour given is kept and drawing again changes nothing; data without colours get different ones at equal distances in the map; the legend has the labels in the order of the data. colours finds a name of the table whatever the case of the letters and returns its text, or red, green and blue from zero to one; other names raise ValueError. make_square makes the axis a square with the shorter side, inside of its old position and around the same centre.", "quantifier": "every nesting of data, list of data with and without colours, labels, table of colours, name and position of the axis", "why_tests_cant": "unbounded nesting and lists; the tests draw nothing", "anchors": ["solcore/graphing/graph.py:Graph.render_data", "solcore/graphing/graph.py:Graph.draw_legend", "solcore/graphing/graph.py:make_square", "solcore/graphing/graph_support.py:flatten", "solcore/graphing/Custom_Colours.py:colours"]}
{"id": "C194", "title": "Searching and exporting the database of refractive indexes", "statement": "search_db returns the pages with a text that contains the term or, with exact, is the term, whatever the case of letters; search_n, search_k and search_nk show exactly the values of pages no further from the numbers than asked for. create_nk_txt makes the folder and the files [file]_n.txt and [file]_k.txt in it, with wavelengths in metres, of what data the page has, leaves all other files alone and writes what the materials of the database use; a missing page is not exported. A row of the export as csv has a wavelength with its n and k.", "quantifier": "every database, term, page, number, folder and file name", "why_tests_cant": "unbounded texts and tables; the tests need a download and are skipped", "anchors": ["solcore/absorption_calculator/nk_db.py:search_db", "solcore/absorption_calculator/nk_db.py:create_nk_txt", "solcore/material_data/refractiveindex_info_DB/dboperations.py:Database.search_nk", "solcore/material_data/refractiveindex_info_DB/dboperations.py:Database.get_material_txt", "solcore/material_data/refractiveindex_info_DB/dbmaterial.py:DBMaterial.to_txt", "solcore/material_data/refractiveindex_info_DB/dbmaterial.py:DBMaterial.to_csv"]}
{"id": "C195", "title": "Devices of the drift-diffusion solver turn back into structures", "statement": "Whatever layers were added to and removed from a device, ToStructure gives those that are left in order, with their widths, compositions and roles at the temperature of the device. LoadAbsorption returns the absorption of the data or of Adachi's model as asked for, with the other one if there is none; for InGaAs that of the data is kept below the gap and zero beyond it. SolveQWproperties gives the layers of the device the properties of the solved well, with the intrinsic density of its gap, and returns them.", "quantifier": "every sequence of changes of a device, every array of wavelengths and absorption and every solution of the well", "why_tests_cant": "unbounded sequences and arrays; no test calls these functions", "anchors": ["solcore/structure.py:ToStructure", "solcore/structure.py:ToLayer", "solcore/poisson_drift_diffusion/DeviceStructure.py:LoadAbsorption", "solcore/poisson_drift_diffusion/DeviceStructure.py:SolveQWproperties", "solcore/poisson_drift_diffusion/DeviceStructure.py:RemoveLayer"]}
{"id": "C196", "title": "Dynamic meshing keeps the device and the solution", "statement": "DynamicMesh succeeds on every strictly increasing mesh that has the master nodes (interfaces and ends) among its nodes. The new mesh is strictly increasing, has the same first and last node and still has every master node at its place. Quantities keep their values at nodes that are kept, stay within their bounds and are exact when linear in the position. A node is removed only if the potentials and the logarithms of the densities differ by less than twice Growth from the node kept before it to the one after it. There is at most one new node per 0.2 nm of an element longer than that, apart from the last element. Every mesh made out of that of CreateMesh, however often it is adapted, runs from zero to the thickness of the device and has nodes at all interfaces and 1 Angstrom before those inside the device. The new mesh is determined by the old one and fits in the arrays of the module.", "quantifier": "every mesh, every set of master nodes, every solution and every value of Growth", "why_tests_cant": "unbounded meshes and continuum of solutions; the tests do not use dynamic meshes", "anchors": ["solcore/poisson_drift_diffusion/DDmodel-current.f95:DynamicMesh", "solcore/poisson_drift_diffusion/DDmodel-current.f95:Interpol"]}
{"id": "C197", "title": "What the drift-diffusion module remembers between calls", "statement": "FrontBoundary and BackBoundary set the velocities of their surface; only ohmic and insulator are known types, and neither type nor barrier has any effect on what is solved then or later. After set_generation and Illumination the wavelengths, profiles and spectrum are those given, whatever was done before, and the photon flux is the integral of the spectrum by trapeziums, exact for linear spectra; each RunIQE divides it by 1e8. Light is of a single wavelength exactly if RunIQE was called since the last Reset. The mesh is adapted exactly if some call so far asked for it. After Equilibrium both kinds of carriers recombine at both surfaces unless light at open circuit follows. With the same wavelengths for all layers AddAbsorption gives every layer its absorption. A mesh with a given number of points is not adapted after Reset, RunIV has recombination at both surfaces, and the wavelengths of the first table of absorption are kept.", "quantifier": "every sequence of calls, every text for the type, every spectrum and every table", "why_tests_cant": "unbounded sequences of calls and texts; the module keeps its state between devices while tests solve one", "anchors": ["solcore/poisson_drift_diffusion/DDmodel-current.f95:Reset", "solcore/poisson_drift_diffusion/DDmodel-current.f95:FrontBoundary", "solcore/poisson_drift_diffusion/DDmodel-current.f95:AddAbsorption", "solcore/poisson_drift_diffusion/DDmodel-current.f95:Illumination", "solcore/poisson_drift_diffusion/DDmodel-current.f95:LightSC"]}
{"id": "C198", "title": "Absorption of the layers of a quantum well", "statement": "With use_Adachi a layer of a quantum well has the absorption of Adachi's model and otherwise that of its data, with the other one if there is none. For this every material is described by a text with its name, its element and its fraction. An alloy whose name has more than four letters and whose element comes first among its parameters is described so.", "quantifier": "every material, parameter and outcome of the data", "why_tests_cant": "unbounded names and parameters; exceptions are swallowed, so that tests of the absorption pass", "anchors": ["solcore/poisson_drift_diffusion/QWunit.py:SolcoreMaterialToStr", "solcore/poisson_drift_diffusion/QWunit.py:QWunit.CalculateAbsorption", "solcore/absorption_calculator/adachi_alpha.py:create_adachi_alpha"]}
