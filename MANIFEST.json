{
 "claims": [
  {
   "property": "C01",
   "status": "partial",
   "theorems": [
    "C01_writes_durable_partial",
    "C01_writes_durable_without_sections_refuted"
   ],
   "note": "Holds for every history when the user data has all shipped sections; fails (refuted) when restore_defaults raises half way because a shipped section is missing."
  },
  {
   "property": "C02",
   "status": "partial",
   "theorems": [
    "C02_reset_partial",
    "C02_reset_refuted"
   ],
   "note": "reset_defaults fixes the file but keeps the old live data; the next save brings it back (refuted)."
  },
  {
   "property": "C03",
   "status": "partial",
   "theorems": [
    "C03_crash_safe_partial",
    "C03_crash_safe_refuted",
    "C03_crash_silent_loss_refuted"
   ],
   "note": "The file is truncated and rewritten in place: every crash point leaves a prefix of the new file, so old data can be lost (refuted); the partial theorem says exactly what survives."
  },
  {
   "property": "C04",
   "status": "partial",
   "theorems": [
    "C04_observers_track_partial",
    "C04_observers_track_refuted"
   ],
   "note": "Observers see every set; remove/restore/reset do not notify (refuted)."
  },
  {
   "property": "C05",
   "status": "partial",
   "theorems": [
    "C05_restore_defaults_partial",
    "C05_restore_source_partial",
    "C05_version_change_partial",
    "C05_new_section_refuted"
   ],
   "note": "Holds when every shipped section exists in the user data; otherwise KeyError (refuted)."
  },
  {
   "property": "C06",
   "status": "proved",
   "theorems": [
    "C06_last_source_wins",
    "C06_sources_follow"
   ],
   "note": "Full statement for every list of sources."
  },
  {
   "property": "C07",
   "status": "partial",
   "theorems": [
    "C07_remove_source_partial",
    "C07_remove_source_refuted",
    "C07_disable_source_refuted"
   ],
   "note": "Removing or disabling a source does not remove its options from the already merged database (refuted)."
  },
  {
   "property": "C08",
   "status": "partial",
   "theorems": [
    "C08_alloy_ends_partial",
    "C08_final_calculables_at_ends_partial",
    "C08_alloy_ends_refuted"
   ],
   "note": "Exact at the ends, and between the parents without bowing, for every parameter taken from the alloy rule; for final calculables under stated conditions; refuted without them (tget alternative when one parent lacks the parameter)."
  },
  {
   "property": "C09",
   "status": "proved",
   "theorems": [
    "C09_lookup_precedence",
    "C09_lookup_unique"
   ],
   "note": "The lookup is equivalent to a declarative system of rules (no fuel); answers are unique."
  },
  {
   "property": "C10",
   "status": "partial",
   "theorems": [
    "C10_layered_lookup_terminates",
    "C10_own_parent_refuted",
    "C10_self_reference_diverges"
   ],
   "note": "Terminates whenever the calculables are layered, even with circular alloys; a material that is its own parent raises KeyError instead of looping (refuted); a self-referring calculable diverges."
  },
  {
   "property": "C11",
   "status": "proved",
   "theorems": [
    "C11_unit_round_trip",
    "C11_convert_same_amount",
    "C11_tables_positive",
    "C11_compound_units_parse",
    "C11_prefixes",
    "C11_value_with_unit"
   ],
   "note": "Round trip, transitivity, positivity of tables, parsing of compound units, meaning of prefixes and of \"number unit\" texts, all proved in full (ideal reals)."
  },
  {
   "property": "C12",
   "status": "proved",
   "theorems": [
    "C12_photon_conversions"
   ],
   "note": "Full statement (ideal reals)."
  },
  {
   "property": "C13",
   "status": "proved",
   "theorems": [
    "C13_spectral_conversion"
   ],
   "note": "Full statement (ideal reals)."
  },
  {
   "property": "C14",
   "status": "partial",
   "theorems": [
    "C14_compare_floats_partial",
    "C14_compare_floats_refuted"
   ],
   "note": "Absolute mode and positive numbers proved; negative numbers always compare equal and zero raises (refuted)."
  },
  {
   "property": "C15",
   "status": "partial",
   "theorems": [
    "C15_sensible_units_partial",
    "C15_sensible_units_refuted"
   ],
   "note": "Every nonzero value raises: indexing dict.keys() (refuted); zero is printed."
  },
  {
   "property": "C16",
   "status": "partial",
   "theorems": [
    "C16_duplicate_rejected",
    "C16_isolated_and_excluded",
    "C16_entries_never_disappear",
    "C16_no_silent_replacement_partial",
    "C16_registration_stores",
    "C16_no_silent_replacement_refuted"
   ],
   "note": "Refusal of duplicates, isolation, monotonicity and storage proved for every history; the check is made when the decorator is built and the store when it is applied, so a second decorator can silently replace the first (refuted)."
  },
  {
   "property": "C17",
   "status": "proved",
   "theorems": [
    "C17_state_is_ordered_map",
    "C17_method_names_shadow"
   ],
   "note": "Refinement to an ordered map; method names are shadowed by attribute writes (second theorem)."
  },
  {
   "property": "C18",
   "status": "proved",
   "theorems": [
    "C18_merge_last_wins"
   ],
   "note": "Full statement."
  },
  {
   "property": "C19",
   "status": "proved",
   "theorems": [
    "C19_labels_aligned",
    "C19_list_methods_refuted"
   ],
   "note": "Full statement for append/append_multiple histories; the additional refutation shows that inherited list methods (extend, pop) are not covered by the class."
  },
  {
   "property": "C20",
   "status": "proved",
   "theorems": [
    "C20_relative_widths_partition"
   ],
   "note": "Full statement (widths as reals)."
  },
  {
   "property": "C21",
   "status": "proved",
   "theorems": [
    "C21_junction_bookkeeping",
    "C21_negative_index"
   ],
   "note": "Full statement; negative indices are also accepted (second theorem)."
  },
  {
   "property": "C22",
   "status": "partial",
   "theorems": [
    "C22_series_resistance_partial",
    "C22_series_resistance_refuted"
   ],
   "note": "append does not add R_series (refuted); exact condition for agreement proved."
  },
  {
   "property": "C23",
   "status": "partial",
   "theorems": [
    "C23_material_string_partial",
    "C23_material_string_refuted"
   ],
   "note": "Only the alphabetically first keyword is read: proved when it is the alloy element, refuted otherwise (GaAsP with P and Na)."
  },
  {
   "property": "C24",
   "status": "partial",
   "theorems": [
    "C24_offsets_partial",
    "C24_offsets_refuted"
   ],
   "note": "Proved for cells of distinct objects; a repeated object (append with repeats=2) shows one offset for both positions (refuted)."
  },
  {
   "property": "C25",
   "status": "partial",
   "theorems": [
    "C25_unknown_task_rejected",
    "C25_dispatch",
    "C25_unknown_kind_rejected",
    "C25_unknown_method_refuted",
    "C25_unknown_method_rejected_partial"
   ],
   "note": "Unknown tasks and unknown junction kinds are rejected, exact call traces proved; an unknown optics method is accepted when the cell was solved before (refuted)."
  },
  {
   "property": "C26",
   "status": "partial",
   "theorems": [
    "C26_positions_partial",
    "C26_element_steps",
    "C26_layer_steps",
    "C26_positions_refuted"
   ],
   "note": "Exact for all lengths except the number of elements / layers, where positions are taken for step sizes (refuted)."
  },
  {
   "property": "C27",
   "status": "proved",
   "theorems": [
    "C27_linear_in_range",
    "C27_out_of_range",
    "C27_nearest"
   ],
   "note": "Full statement for kinds linear and nearest on 1-D tables; splines (scipy) are not modelled."
  },
  {
   "property": "C28",
   "status": "partial",
   "theorems": [
    "C28_bilinear_partial",
    "C28_shapes_checked",
    "C28_bilinear_refuted"
   ],
   "note": "Proved on the half-open rectangle; at the upper edges the answer is always 0 (refuted)."
  },
  {
   "property": "C29",
   "status": "partial",
   "theorems": [
    "C29_accepts",
    "C29_series_law_partial",
    "C29_out_of_range_refuted"
   ],
   "note": "series law at every computed node for any monotone tables and tunnels, and between nodes for resistive tunnels; fails outside the computed voltage range (np.interp clamps), refuted by witness; radiative coupling not modelled"
  },
  {
   "property": "C30",
   "status": "proved",
   "theorems": [
    "C30_maximum_power_point",
    "C30_isc_voc"
   ],
   "note": "all samples; NaN samples not modelled (reals)"
  },
  {
   "property": "C31",
   "status": "partial",
   "theorems": [
    "C31_diode_curve",
    "C31_open_circuit_partial",
    "C31_open_circuit_refuted",
    "C31_reference_point"
   ],
   "note": "curve proved for all physical junctions; J02-from-Voc exact for R_shunt <= 1e14; with the default shunts (1e15 in the helper, 1e14 cap in the solver) the current at Voc is not zero (refuted)"
  },
  {
   "property": "C32",
   "status": "proved",
   "theorems": [
    "C32_update_j0",
    "C32_solver_agrees"
   ],
   "note": "identity, composition, growth, when it raises; agreement with the solver's own correction for ideality factors 1 and 2"
  },
  {
   "property": "C33",
   "status": "partial",
   "theorems": [
    "C33_light_history_partial",
    "C33_dark_erases_photocurrent",
    "C33_dark_first_refuted",
    "C33_other_source_refuted"
   ],
   "note": "holds for any history of light measurements under one source; a dark measurement stores jsc=0 and erases the photocurrent for good, and a first light measurement freezes the photocurrent for other sources (both refuted)"
  },
  {
   "property": "C34",
   "status": "partial",
   "theorems": [
    "C34_resistive_inverse_partial",
    "C34_zero_resistance_refuted",
    "C34_external_partial",
    "C34_external_new_junction_fails",
    "C34_external_refuted"
   ],
   "note": "resistive proved for R>0 (R=0 refuted, no minimum is enforced); external solver raises AttributeError on every new junction with >= 2 points"
  },
  {
   "property": "C35",
   "status": "partial",
   "theorems": [
    "C35_absorptance_partial",
    "C35_edge_refuted",
    "C35_negative_refuted",
    "C35_qe"
   ],
   "note": "edge at 1240 nm eV instead of hc/q (refuted), negative A accepted (refuted), rest proved"
  },
  {
   "property": "C36",
   "status": "partial",
   "theorems": [
    "C36_depletion_widths_partial",
    "C36_charge_balance_refuted",
    "C36_one_sided_balance_partial"
   ],
   "note": "signs, monotonicity and vanishing proved in both expressions; charge balance and the Poisson drop proved for the two-sided expression with one permittivity; refuted for the one-sided expression and for different permittivities"
  },
  {
   "property": "C37",
   "status": "partial",
   "theorems": [
    "C37_identify_layers_partial",
    "C37_same_type_refuted",
    "C37_refusals"
   ],
   "note": "the accepted lists are characterised exactly; the base's doping is never looked at, so two n-type layers are accepted (refuted)"
  },
  {
   "property": "C38",
   "status": "partial",
   "theorems": [
    "C38_diffusion_current_partial",
    "C38_diffusion_increases_refuted",
    "C38_dark_current_at_zero_partial",
    "C38_equal_lifetimes_refuted"
   ],
   "note": "zero at zero bias when the lifetimes differ; with equal lifetimes the SRH factor is 0/0 = nan (refuted); increasing with bias at fixed depletion width and under the stated conditions at shrinking width, refuted in general"
  },
  {
   "property": "C39",
   "status": "proved",
   "theorems": [
    "C39_energy",
    "C39_profile"
   ],
   "note": "one wavelength at a time; integral in the sense of Coquelicot's is_RInt"
  },
  {
   "property": "C40",
   "status": "partial",
   "theorems": [
    "C40_attribution_partial",
    "C40_element_profile_partial",
    "C40_layerless_refuted",
    "C40_layerless_slab_partial"
   ],
   "note": "proved for cells where every 2D/DB junction has exactly one layer; refuted for layer-less DB junctions (n_layers_junction counts 0 for the slab they add)"
  },
  {
   "property": "C41",
   "status": "partial",
   "theorems": [
    "C41_profile_pointwise_partial",
    "C41_order_refuted"
   ],
   "note": "proved for non-decreasing depths; refuted for others (wrong zero, IndexError)"
  },
  {
   "property": "C42",
   "status": "partial",
   "theorems": [
    "C42_balance_partial",
    "C42_entering",
    "C42_reciprocity_partial",
    "C42_lossless",
    "C42_unpolarised_partial"
   ],
   "note": "energy balance over all layers, for passive stacks, both polarisations and all angles below total reflection of the incident side, with the capped phase excluded (Im delta <= 100 or the layer is not an extreme metal); reciprocity of T for lossless outer media"
  },
  {
   "property": "C43",
   "status": "proved",
   "theorems": [
    "C43_stokes",
    "C43_polarisation"
   ],
   "note": "Stokes relations between r and t from both sides, R from r, T from t"
  },
  {
   "property": "C44",
   "status": "partial",
   "theorems": [
    "C44_inverse_partial",
    "C44_negative_refuted",
    "C44_docstring_refuted"
   ],
   "note": "proved for non-negative depths; a negative depth returns the last layer (index -1 of the searched list, refuted), and the returned index counts from 1, unlike the docstring (refuted)"
  },
  {
   "property": "C45",
   "status": "proved",
   "theorems": [
    "C45_accepts",
    "C45_partition",
    "C45_stacks"
   ],
   "note": "Full statement."
  },
  {
   "property": "C46",
   "status": "partial",
   "theorems": [
    "C46_operations_partial",
    "C46_add_partial",
    "C46_add_refuted",
    "C46_array_partial",
    "C46_opaque_flip_refuted"
   ],
   "note": "flip, scale, add, and array run against scalar run; add accepts functions that differ at some wavelengths (refuted), and array run drops the growing part when A1 < 1e-100, so a flipped opaque layer reads zero (refuted)"
  },
  {
   "property": "C47",
   "status": "partial",
   "theorems": [
    "C47_swap_meaning",
    "C47_refines_partial",
    "C47_failed_layer_refuted",
    "C47_layers_list_refuted",
    "C47_error_stops"
   ],
   "note": "refinement of a list of layers for every history of well-formed layers; a layer whose construction fails half way leaves its width behind (refuted), and the remembered input layers do not follow removals (refuted)"
  },
  {
   "property": "C48",
   "status": "partial",
   "theorems": [
    "C48_own_index_partial",
    "C48_absorber_partial",
    "C48_late_binding_refuted",
    "C48_cache_partial",
    "C48_cache_first",
    "C48_raw_data"
   ],
   "note": "own index for every layer as long as no mixed layer has a layer after it; a mixed layer takes the model of the last layer at the time of reading (refuted); tabulated data proved at the samples and outside the table; the cache around n and k keeps the first answer"
  },
  {
   "property": "C49",
   "status": "proved",
   "theorems": [
    "C49_output_units"
   ],
   "note": "all ten converters, for every power spectrum and positive abscissas"
  },
  {
   "property": "C50",
   "status": "partial",
   "theorems": [
    "C50_roundtrip_partial",
    "C50_photon_hz_partial",
    "C50_unit_names_refuted",
    "C50_photon_hz_refuted"
   ],
   "note": "exact round trip for nine of the ten input units; photon_flux_per_hz multiplies with the abscissas in the wrong order (exact factor proved, refuted); the registered names per_ev/per_joule are not accepted as input units (refuted)"
  },
  {
   "property": "C51",
   "status": "partial",
   "theorems": [
    "C51_abscissas_partial",
    "C51_requested_refuted",
    "C51_internal_refuted"
   ],
   "note": "holds when the stored abscissas are used; requested abscissas are not returned (refuted) and None is returned for internal ones (refuted)"
  },
  {
   "property": "C52",
   "status": "partial",
   "theorems": [
    "C52_zero_stress",
    "C52_thickness_sign",
    "C52_positive_thickness_refuted",
    "C52_well_fraction",
    "C52_barrier_fraction_refuted",
    "C52_unknown_option_ignored"
   ],
   "note": "zero stress and minimal energy for both thickness options; well fraction up to the tolerance of the bisection; the barrier fraction search can return the pole at lattice matching (refuted); negative thicknesses are returned for equal signs of strain (refuted)"
  },
  {
   "property": "C53",
   "status": "partial",
   "theorems": [
    "C53_sign_checks",
    "C53_agrees_with_kp",
    "C53_directions",
    "C53_lattice_matched_partial",
    "C53_split_off_refuted"
   ],
   "note": "checks pass exactly for ac<=0, b<=0; directions, lattice matching and agreement with kp4x4/kp6x6; the split-off shift contains the splitting (refuted)"
  },
  {
   "property": "C54",
   "status": "proved",
   "theorems": [
    "C54_hermitian",
    "C54_eigenvalues_real",
    "C54_bands"
   ],
   "note": "Hermitian, eigenvalues real; any solver output meeting the eigenvector specification gives the four doubly degenerate bands (C54_bands)."
  },
  {
   "property": "C55",
   "status": "partial",
   "theorems": [
    "C55_masses_partial",
    "C55_masses_refuted"
   ],
   "note": "Electron mass, heavy-hole mass along growth and light-hole mass across agree; the other two are exchanged whenever gamma2 > 0 (refuted)."
  },
  {
   "property": "C56",
   "status": "partial",
   "theorems": [
    "C56_symmetric_partial",
    "C56_levels",
    "C56_nonuniform_refuted",
    "C56_energies",
    "C56_periodic_partial",
    "C56_periodic_refuted"
   ],
   "note": "Real levels not below the bottom on any increasing mesh; symmetric on uniform meshes only (refuted otherwise); periodic corners symmetric only when the end masses agree (refuted otherwise)."
  },
  {
   "property": "C57",
   "status": "partial",
   "theorems": [
    "C57_assembly_partial",
    "C57_no_repeats_refuted"
   ],
   "note": "Proved for n >= 1; n <= 0 still builds one well (refuted)."
  },
  {
   "property": "C58",
   "status": "partial",
   "theorems": [
    "C58_smooth_partial",
    "C58_windows_refuted",
    "C58_short"
   ],
   "note": "Flat window: length, constants, range and exact moving average proved; every other window, the default included, raises NameError and one-sided blurring raises TypeError (refuted)."
  },
  {
   "property": "C59",
   "status": "partial",
   "theorems": [
    "C59_citations_partial",
    "C59_citations_refuted"
   ],
   "note": "The bibliography is keyed by calling function: one entry per function proved for every history; one entry per reference is false (refuted)."
  },
  {
   "property": "C60",
   "status": "partial",
   "theorems": [
    "C60_same",
    "C60_sources_partial",
    "C60_kind_partial",
    "C60_distinct_partial",
    "C60_stale_refuted",
    "C60_sopra_refuted",
    "C60_collision_refuted"
   ],
   "note": "Same class proved as long as the database holds the same of the named material; sources proved at the first request; kinds proved for names whose keys cannot clash. Refuted: a later read of another source does not reach classes already made, whether a name is taken from SOPRA depends on what was asked before, and two different requests can have the same key."
  },
  {
   "property": "C61",
   "status": "proved",
   "theorems": [
    "C61_exact",
    "C61_between",
    "C61_outside"
   ],
   "note": "Proved at every tabulated composition (including the first, where the lower neighbour wraps round to the last) and between; outside the range: IndexError above, extrapolation along the line from the last to the first composition below."
  },
  {
   "property": "C62",
   "status": "partial",
   "theorems": [
    "C62_partial",
    "C62_binaries",
    "C62_refuted",
    "C62_quad",
    "C62_linear",
    "C62_epsilon",
    "C62_fraction",
    "C62_InGaAs_ends",
    "C62_GaInP_holes",
    "C62_general_ends",
    "C62_quaternary_ends",
    "C62_Al_holes",
    "C62_InGaAs",
    "C62_refuted_ends",
    "C62_refuted_InAsP",
    "C62_unknown",
    "C62_refuted_spelling",
    "C62_no_temperature",
    "C62_valleys",
    "C62_quaternary_lower"
   ],
   "note": "Bounds and monotony proved for the parameters of the shipped binaries up to a temperature limit; above it (GaAs electrons) the maximum falls below the minimum (refuted). End points proved for most alloys; GaInP electrons at In=1 and InAsP are refuted."
  },
  {
   "property": "C63",
   "status": "proved",
   "theorems": [
    "C63_netlist"
   ],
   "note": "Full statement."
  },
  {
   "property": "C64",
   "status": "partial",
   "theorems": [
    "C64_location_partial",
    "C64_location_overflow",
    "C64_location_refuted"
   ],
   "note": "Proved below ten junctions and a thousand pixels per direction; one more character in the location and the last digit of y is lost, so ten pixels share one entry (refuted)."
  },
  {
   "property": "C65",
   "status": "partial",
   "theorems": [
    "C65_temperature_ignored",
    "C65_temperature_refuted"
   ],
   "note": "Falsified: no entry point hands a temperature to the Fortran module, which stays at 300 K; the temperature only moves the voltage limit beyond the gap."
  },
  {
   "property": "C66",
   "status": "proved",
   "theorems": [
    "C66_branches"
   ],
   "note": "Full statement."
  },
  {
   "property": "C67",
   "status": "partial",
   "theorems": [
    "C67_partial",
    "C67_reversed",
    "C67_refuted"
   ],
   "note": "Proved for n-p junctions and for p-n junctions with a positive or no negative voltage; with only negative voltages on a p-n junction the arrays are in decreasing order and the interpolator returns two constants (refuted, and characterised for every such list)."
  },
  {
   "property": "C68",
   "status": "partial",
   "theorems": [
    "C68_partial",
    "C68_defaults",
    "C68_thin",
    "C68_equal_spacing",
    "C68_deep_thin",
    "C68_no_junction",
    "C68_refuted_back",
    "C68_refuted_order",
    "C68_update",
    "C68_update_constant",
    "C68_dense",
    "C68_update_dense"
   ],
   "note": "Proved under explicit conditions (default spacings: 2 um or more and a junction depth outside 89.6-90 %), and for the refinement; thin junctions, equal spacings, deep junctions in thin cells, missing junctions, short rear parts and shallow junctions in thin cells fail (refuted)."
  },
  {
   "property": "C69",
   "status": "proved",
   "theorems": [
    "C69_doping"
   ],
   "note": "Full statement; points beyond the back get 0."
  },
  {
   "property": "C70",
   "status": "proved",
   "theorems": [
    "C70_layer_count"
   ],
   "note": "Full statement."
  },
  {
   "property": "C71",
   "status": "partial",
   "theorems": [
    "C71_flags_partial",
    "C71_flags_refuted"
   ],
   "note": "Set-then-read proved; the shipped value \"1\" reads as False (refuted)."
  },
  {
   "property": "C72",
   "status": "partial",
   "theorems": [
    "C72_registered_solver_used_partial",
    "C72_iv_registry_refuted"
   ],
   "note": "Proved for equilibrium and short_circuit; the IV task never consults IV_SOLVER_REGISTRY (refuted)."
  },
  {
   "property": "C73",
   "status": "partial",
   "theorems": [
    "C73_default_mesh_partial",
    "C73_default_mesh_refuted"
   ],
   "note": "Proved when no 2D/DB junction has its own width; refuted otherwise."
  },
  {
   "property": "C74",
   "status": "partial",
   "theorems": [
    "C74_optics_current_partial",
    "C74_optics_current_refuted",
    "C74_other_tasks_partial"
   ],
   "note": "Proved when the optics step runs; results of an earlier call are silently reused otherwise (refuted)."
  },
  {
   "property": "C75",
   "status": "partial",
   "theorems": [
    "C75_reference_efficiency",
    "C75_rad_eff_partial",
    "C75_rad_eff_refuted"
   ],
   "note": "reference helper proved; calculate_J02_from_rad_eff adds the shunt current with the wrong sign (refuted, exact error in the partial theorem)"
  },
  {
   "property": "C76",
   "status": "proved",
   "theorems": [
    "C76_J01_is_emission"
   ],
   "note": "Coquelicot integral"
  },
  {
   "property": "C77",
   "status": "partial",
   "theorems": [
    "C77_parametric_partial",
    "C77_not_monotone_refuted",
    "C77_current_at_zero_bias_refuted"
   ],
   "note": "monotone below the peak and mirror symmetry proved; the interpolation abscissa can decrease beyond the peak and current flows at zero bias (refuted)"
  },
  {
   "property": "C78",
   "status": "partial",
   "theorems": [
    "C78_detailed_balance_curve",
    "C78_external_eqe_refuted",
    "C78_two_temperatures",
    "C78_internal_reflection"
   ],
   "note": "Boltzmann mode; full Planck mode not modelled; externally given EQE without absorptance raises (refuted)"
  },
  {
   "property": "C79",
   "status": "partial",
   "theorems": [
    "C79_green_solves_bvp_partial",
    "C79_collection_bounded"
   ],
   "note": "agreement of the Green's function with any solution of the boundary value problem for (xb-xa)/L <= 100; beyond that the asymptotic kernel is an approximation, for which only the collection bound is proved"
  },
  {
   "property": "C80",
   "status": "partial",
   "theorems": [
    "C80_sah_integral_partial",
    "C80_reverse_bias_refuted"
   ],
   "note": "integral proved for b<1 and 1<b<1e7; b=1 gives nan (C38_equal_lifetimes_refuted); for b>=1e7 the approximation overestimates by an unbounded factor (refuted)"
  },
  {
   "property": "C81",
   "status": "partial",
   "theorems": [
    "C81_stored_alpha_partial",
    "C81_late_binding_refuted"
   ],
   "note": "the closure reads the loop variables after the loop: own value only for the last element (refuted otherwise)"
  },
  {
   "property": "C82",
   "status": "proved",
   "theorems": [
    "C82_density",
    "C82_analytic"
   ],
   "note": "Full statement."
  },
  {
   "property": "C83",
   "status": "partial",
   "theorems": [
    "C83_mixture_partial",
    "C83_extinction_refuted"
   ],
   "note": "real part is the documented mixture; the imaginary part adds the tabulated k in full (refuted)"
  },
  {
   "property": "C85",
   "status": "partial",
   "theorems": [
    "C85_default_units_refuted",
    "C85_default_nm_partial"
   ],
   "note": "holds per nm; internal abscissas are nm whatever the units (refuted)"
  },
  {
   "property": "C86",
   "status": "partial",
   "theorems": [
    "C86_update_partial",
    "C86_only_existing",
    "C86_failed_update_refuted",
    "C86_stale_abscissas_refuted"
   ],
   "note": "equal to a new source whenever that source can be built and abscissas are given; failed updates return the old spectrum and default abscissas are those before the change (refuted)"
  },
  {
   "property": "C87",
   "status": "partial",
   "theorems": [
    "C87_black_body",
    "C87_laser",
    "C87_default_zero_refuted"
   ],
   "note": "Planck's law, monotonicity, scaling; laser symmetry and peak; the black body default abscissas start at 0 (refuted)"
  },
  {
   "property": "C88",
   "status": "proved",
   "theorems": [
    "C88_mass_sum"
   ],
   "note": "sum rule for both directions"
  },
  {
   "property": "C89",
   "status": "partial",
   "theorems": [
    "C89_critical_thickness_partial",
    "C89_no_solution_refuted",
    "C89_lattice_fraction_refuted"
   ],
   "note": "a solution within the tolerance for constants between 2 and 1e8; for large misfits the pole is returned (refuted); lattice_fraction is ignored (refuted)"
  },
  {
   "property": "C90",
   "status": "partial",
   "theorems": [
    "C90_edges_partial",
    "C90_labels_refuted"
   ],
   "note": "Edges proved at zone centre; the heavy/light relabelling is by position in the sorted list, wrong when the strain moves the light holes up with b > 0 (refuted)."
  },
  {
   "property": "C91",
   "status": "partial",
   "theorems": [
    "C91_symmetric_partial",
    "C91_interface_refuted",
    "C91_zone_centre_partial"
   ],
   "note": "Symmetric for position-independent Luttinger parameters with any potential; not symmetric where they change (refuted); decoupled at kt = 0 with the 4-band masses."
  },
  {
   "property": "C92",
   "status": "partial",
   "theorems": [
    "C92_wavefunctions_partial",
    "C92_no_level",
    "C92_local_equation",
    "C92_nonuniform_refuted"
   ],
   "note": "Normalised, ordered, and solving the difference equation on uniform meshes; on a non-uniform mesh the returned vector is the solution times dz^2 (refuted)."
  },
  {
   "property": "C95",
   "status": "partial",
   "theorems": [
    "C95_parabolic_levels",
    "C95_all_levels_refuted"
   ],
   "note": "Proved against the Hamiltonian with in-plane energy; a negative quasiconfined always loses the highest level (refuted)."
  },
  {
   "property": "C96",
   "status": "proved",
   "theorems": [
    "C96_guess_dimension"
   ],
   "note": "Full statement."
  },
  {
   "property": "C93",
   "status": "proved",
   "theorems": [
    "C93_band_profile"
   ],
   "note": "Full statement."
  },
  {
   "property": "C97",
   "status": "partial",
   "theorems": [
    "C97_blur_refuted"
   ],
   "note": "Falsified: no call returns a blurred profile; a window of three points or more raises TypeError."
  },
  {
   "property": "C98",
   "status": "partial",
   "theorems": [
    "C98_varied_wells_partial",
    "C98_shared_well_refuted"
   ],
   "note": "Proved for distinct layer objects; assemble_qw_structure puts the same well object into the structure n times, so the factors multiply (refuted)."
  },
  {
   "property": "C99",
   "status": "proved",
   "theorems": [
    "C99_energy_filter"
   ],
   "note": "Full statement."
  },
  {
   "property": "C100",
   "status": "partial",
   "theorems": [
    "C100_confinement_partial",
    "C100_two_wells_refuted"
   ],
   "note": "Proved for one well; with several wells the trapezium rule also covers the barriers between them (refuted)."
  },
  {
   "property": "C101",
   "status": "proved",
   "theorems": [
    "C101_series"
   ],
   "note": "Full statement."
  },
  {
   "property": "C102",
   "status": "partial",
   "theorems": [
    "C102_dispersion_partial",
    "C102_exceeds_refuted",
    "C102_width_refuted"
   ],
   "note": "Bounds and formula proved; the draws are scaled by jscSigma twice, so the width is its square, and wide distributions exceed the ideal value (refuted)."
  },
  {
   "property": "C103",
   "status": "proved",
   "theorems": [
    "C103_names"
   ],
   "note": "Full statement."
  },
  {
   "property": "C104",
   "status": "partial",
   "theorems": [
    "C104_results_partial"
   ],
   "note": "Proved for locations that fit the heading slice (see C64)."
  },
  {
   "property": "C105",
   "status": "partial",
   "theorems": [
    "C105_dead_ends_partial",
    "C105_diagonal_refuted"
   ],
   "note": "Off-grid nodes proved; the metal node of a pixel without contact joins two contacts that touch only diagonally (refuted)."
  },
  {
   "property": "C106",
   "status": "proved",
   "theorems": [
    "C106_solver_voltages"
   ],
   "note": "Full statement for the loop of RunIV."
  },
  {
   "property": "C107",
   "status": "partial",
   "theorems": [
    "C107_currents_partial",
    "C107_uneven_grid_refuted"
   ],
   "note": "Proved on grids of equal steps with a positive voltage; on other grids the current at the last voltages is that of the last multiple of the first step (refuted)."
  },
  {
   "property": "C108",
   "status": "partial",
   "theorems": [
    "C108_limits_partial",
    "C108_beyond_gap_refuted"
   ],
   "note": "The range is never enlarged and forward bias is limited by the gap plus three thermal voltages; it does exceed the gap (refuted)."
  },
  {
   "property": "C109",
   "status": "partial",
   "theorems": [
    "C109_options_partial",
    "C109_convergence_ignored",
    "C109_convergence_refuted"
   ],
   "note": "Mesh and recombination options proved; the reset that follows restores the default convergence parameters (refuted)."
  },
  {
   "property": "C110",
   "status": "proved",
   "theorems": [
    "C110_layers"
   ],
   "note": "Full statement for every history of earlier calls."
  },
  {
   "property": "C111",
   "status": "partial",
   "theorems": [
    "C111_diffusion_equation_partial",
    "C111_dark_current_partial",
    "C111_mirror",
    "C111_lifetimes_refuted",
    "C111_recombination_sign"
   ],
   "note": "Diffusion equation up to 200 diffusion lengths, sum, mirror symmetry and sign proved; the lifetimes pair the electrons' diffusion length with the holes' diffusion coefficient and vice versa (refuted)."
  },
  {
   "property": "C84",
   "status": "partial",
   "theorems": [
    "C84_energy_partial",
    "C84_net_radiation",
    "C84_slab",
    "C84_absorbing_refuted",
    "C84_grazing"
   ],
   "note": "Energy proved when the inner incoherent layers do not absorb; net radiation and the sum over passes proved for absorbing ones too; a thin strongly absorbing incoherent layer transmits more than the incident light (refuted)."
  },
  {
   "property": "C112",
   "status": "proved",
   "theorems": [
    "C112_profile"
   ],
   "note": "Proved; the depths asked for need not reach the end of the layer, in which case the whole absorbed light is put into them."
  },
  {
   "property": "C113",
   "status": "partial",
   "theorems": [
    "C113_no_solution",
    "C113_refuted"
   ],
   "note": "Falsified: the exception is built but not raised; an UnboundLocalError follows."
  },
  {
   "property": "C114",
   "status": "partial",
   "theorems": [
    "C114_partial",
    "C114_refuted"
   ],
   "note": "Proved for constant doping; profiles are evaluated at the depth in the junction instead of that in the layer (refuted)."
  },
  {
   "property": "C115",
   "status": "proved",
   "theorems": [
    "C115_sweep_order"
   ],
   "note": "Full statement."
  },
  {
   "property": "C116",
   "status": "partial",
   "theorems": [
    "C116_partial",
    "C116_refuted"
   ],
   "note": "Proved when one of the densities is zero; the minority dopant of a compensated layer is ignored (refuted)."
  },
  {
   "property": "C117",
   "status": "proved",
   "theorems": [
    "C117_srv"
   ],
   "note": "Full statement."
  },
  {
   "property": "C118",
   "status": "proved",
   "theorems": [
    "C118_lifetime",
    "C118_material",
    "C118_complete"
   ],
   "note": "Full statement."
  },
  {
   "property": "C119",
   "status": "proved",
   "theorems": [
    "C119_qe"
   ],
   "note": "Full statement for the values at the wavelengths."
  },
  {
   "property": "C120",
   "status": "partial",
   "theorems": [
    "C120_position",
    "C120_order",
    "C120_points",
    "C120_identity",
    "C120_spectrum",
    "C120_between_partial",
    "C120_refuted"
   ],
   "note": "Tabulated compositions proved; between them proved when the critical points have the same order in both compositions; the shipped GaAsP table has two points in opposite order and the order of wavelengths is lost (refuted)."
  },
  {
   "property": "C121",
   "status": "partial",
   "theorems": [
    "C121_elements",
    "C121_tunnels",
    "C121_tunnel_refuted",
    "C121_errors",
    "C121_metal"
   ],
   "note": "Proved for all elements; tunnel junctions proved when one lies between any two junctions; otherwise they are placed by counting (refuted). Error cases complete (C121_errors)."
  },
  {
   "property": "C122",
   "status": "proved",
   "theorems": [
    "C122_aligned",
    "C122_again"
   ],
   "note": "Full statement."
  },
  {
   "property": "C123",
   "status": "proved",
   "theorems": [
    "C123_mesh"
   ],
   "note": "Full statement."
  },
  {
   "property": "C124",
   "status": "partial",
   "theorems": [
    "C124_scaling_partial",
    "C124_bus_refuted"
   ],
   "note": "Proved at the semiconductor nodes; the 1e-16 Ohm resistances of bus bars and of the external connection are not scaled (refuted at the metal nodes)."
  },
  {
   "property": "C125",
   "status": "proved",
   "theorems": [
    "C125_instance",
    "C125_parameter"
   ],
   "note": "Full statement."
  },
  {
   "property": "C126",
   "status": "partial",
   "theorems": [
    "C126_affinity",
    "C126_offsets",
    "C126_mass_action",
    "C126_temperature",
    "C126_power",
    "C126_tabulated",
    "C126_alloy",
    "C126_alloy_refuted"
   ],
   "note": "Alignment, mass action and temperature proved; tabulated values of alloys are never used because they are asked for without composition and the refusal is taken for a missing entry (refuted)."
  },
  {
   "property": "C127",
   "status": "partial",
   "theorems": [
    "C127_uniform",
    "C127_terminal_partial",
    "C127_balance",
    "C127_terminal_refuted"
   ],
   "note": "Uniform current, terminal current for both polarities and balance proved; with equal doping at the last node the surface currents are left out (refuted)."
  },
  {
   "property": "C128",
   "status": "proved",
   "theorems": [
    "C128_mass_action",
    "C128_direction",
    "C128_equilibrium",
    "C128_no_current"
   ],
   "note": "Full statement."
  },
  {
   "property": "C129",
   "status": "partial",
   "theorems": [
    "C129_holes",
    "C129_electrons_partial",
    "C129_electrons_refuted"
   ],
   "note": "Proved for holes; for electrons proved where the mobility is the same at both nodes, otherwise off by the ratio of the mobilities (refuted: mobility of the left with the density of the right node)."
  },
  {
   "property": "C130",
   "status": "proved",
   "theorems": [
    "C130_init",
    "C130_neutral"
   ],
   "note": "Full statement."
  },
  {
   "property": "C131",
   "status": "partial",
   "theorems": [
    "C131_poisson",
    "C131_continuity_partial",
    "C131_continuity_refuted",
    "C131_rates"
   ],
   "note": "Rows of Poisson's equation exact; continuity rows exact without recombination and light; with recombination the entries carry a weight that the residual does not have (refuted)."
  },
  {
   "property": "C132",
   "status": "partial",
   "theorems": [
    "C132_clamp_partial",
    "C132_clamp_refuted",
    "C132_decrease_refuted"
   ],
   "note": "Common fraction and the limit for the entries 1..3M-1 proved; the last entries are not looked at, and corrections below the clamp are accepted unseen (refuted)."
  },
  {
   "property": "C133",
   "status": "proved",
   "theorems": [
    "C133_generation",
    "C133_ramp"
   ],
   "note": "Full statement."
  },
  {
   "property": "C134",
   "status": "partial",
   "theorems": [
    "C134_balance_partial",
    "C134_last_refuted"
   ],
   "note": "Proved for all wavelengths but the last, which is never computed and keeps the value of an earlier run (refuted for every run)."
  },
  {
   "property": "C135",
   "status": "proved",
   "theorems": [
    "C135_solve",
    "C135_unique"
   ],
   "note": "Full statement: a vanishing pivot is shown to contradict regularity."
  },
  {
   "property": "C136",
   "status": "partial",
   "theorems": [
    "C136_newton",
    "C136_poisson",
    "C136_surfaces",
    "C136_continuity_partial",
    "C136_descent_partial"
   ],
   "note": "Linearised equations, Poisson's equation and the surface potentials proved without restriction; rates and descent of the continuity equations for devices without recombination and light whose elements are all outside the series of Z (the Jacobian is not exact otherwise, C131)."
  },
  {
   "property": "C137",
   "status": "partial",
   "theorems": [
    "C137_ends",
    "C137_first",
    "C137_codes_refuted"
   ],
   "note": "Termination and the meaning of the codes proved; a search that stalls at a large residual is reported as converged and convergence in the last iteration as failure (refuted)."
  },
  {
   "property": "C138",
   "status": "partial",
   "theorems": [
    "C138_mesh_partial",
    "C138_mesh_refuted",
    "C138_uniform"
   ],
   "note": "Proved for fine < coarse; for coarse <= fine, the last element of a layer thicker than the coarse size is twice as long as the others and above the coarse size, for every such layer (refuted)."
  },
  {
   "property": "C139",
   "status": "proved",
   "theorems": [
    "C139_layer",
    "C139_changes"
   ],
   "note": "Full statement; the second part for fine < coarse and layers thicker than 0.15 nm."
  },
  {
   "property": "C140",
   "status": "proved",
   "theorems": [
    "C140_balance",
    "C140_blocked"
   ],
   "note": "Full statement, for at least two angles."
  },
  {
   "property": "C141",
   "status": "partial",
   "theorems": [
    "C141_nodes",
    "C141_unique",
    "C141_gain",
    "C141_dark_current",
    "C141_loop",
    "C141_dark_refuted"
   ],
   "note": "Node equations, loop, uniqueness and gain proved given that scipy's root finder finds a zero (parameter). The last clause is false: the coupling term lacks the -1, every operating point in the dark at zero voltage delivers current (dark_current, refuted). Tunnel junctions are left out of the sum of voltages with a warning."
  },
  {
   "property": "C142",
   "status": "partial",
   "theorems": [
    "C142_passive_partial",
    "C142_models_refuted",
    "C142_clearer"
   ],
   "note": "Proved for the rural, maritime and tropospheric models (passive_partial) and for all amounts (clearer). The urban model raises UnboundLocalError because the branch tests for rural twice, own coefficients never pass the assertion (models_refuted)."
  },
  {
   "property": "C143",
   "status": "partial",
   "theorems": [
    "C143_height",
    "C143_horizon_refuted",
    "C143_day_partial",
    "C143_calendar",
    "C143_day_refuted",
    "C143_east_refuted",
    "C143_joules_partial",
    "C143_joules_refuted"
   ],
   "note": "Height proved from one degree off the zenith to the horizon; below it the air mass falls again, so that just before 93.885 degrees more light arrives than at any place with the sun up (horizon_refuted). The date lags by one day (day_refuted), the sign of the longitude is west-positive while the default object is east-positive (east_refuted), and 1.6e-19 is used for the charge (joules_refuted)."
  },
  {
   "property": "C144",
   "status": "partial",
   "theorems": [
    "C144_order",
    "C144_file",
    "C144_between",
    "C144_outside",
    "C144_temperature_partial",
    "C144_temperature_refuted"
   ],
   "note": "Order, nodes, interpolation and ends proved for both kinds of sets. Temperatures are checked with 273.15 but interpolated with 273.19: only the lowest file is returned at its own temperature (temperature_refuted)."
  },
  {
   "property": "C145",
   "status": "partial",
   "theorems": [
    "C145_plain",
    "C145_alloy",
    "C145_absorption",
    "C145_alpha",
    "C145_case_refuted",
    "C145_folder_refuted",
    "C145_tenths_refuted"
   ],
   "note": "Proved where the files are found under the name used. An alloy written in other capitals than in compounds.txt loses its composition and becomes vacuum silently (case_refuted); SiPOLY is listed with Poly but its folder is called X, so n ends the interpreter (folder_refuted); the files of ZnSeTe carry tenths instead of per cent (tenths_refuted)."
  },
  {
   "property": "C146",
   "status": "partial",
   "theorems": [
    "C146_first_row_partial",
    "C146_radiative_refuted"
   ],
   "note": "False: n is evaluated at the energy in J as if it were a wavelength in m, which gives the first tabulated index (first_row_partial says exactly what is computed; refuted with a factor of four)."
  },
  {
   "property": "C147",
   "status": "partial",
   "theorems": [
    "C147_balance_partial",
    "C147_thick",
    "C147_incoherent_partial",
    "C147_foreign",
    "C147_reuse_refuted"
   ],
   "note": "Proved for cells of different elements of the types Layer, Junction and TunnelJunction, coherent (balance_partial) and with transparent incoherent layers (incoherent_partial; absorbing ones can break the balance, C84), each with unpolarised light; the switch to the incoherent treatment without restriction (thick). One object at two places of the cell keeps only the last absorption, the rest is reported as transmitted (reuse_refuted); a cell with an element of any other type, e.g. a subclass, fails (foreign)."
  },
  {
   "property": "C148",
   "status": "partial",
   "theorems": [
    "C148_between",
    "C148_nonneg",
    "C148_integral",
    "C148_element",
    "C148_single_refuted",
    "C148_beyond_refuted"
   ],
   "note": "Proved for depths more than a thousandth of a nanometre apart. Beyond the last depth the profile is continued in a straight line and can be negative (beyond_refuted); a grid with a single depth inside the structure fails (single_refuted)."
  },
  {
   "property": "C149",
   "status": "partial",
   "theorems": [
    "C149_layer_partial",
    "C149_total_partial"
   ],
   "note": "Coherent calculation, for layers whose phase is not capped (imaginary part at most 100) and media as in C42; stacks with incoherent layers are C150."
  },
  {
   "property": "C150",
   "status": "partial",
   "theorems": [
    "C150_coherent_partial",
    "C150_stack_partial",
    "C150_incoherent_partial",
    "C150_threshold_refuted",
    "C150_positions_refuted"
   ],
   "note": "Coherent layers between transparent incoherent ones: the profile is within 1e-13 per nm of a density with the right integral, for s, p and unpolarised light (coherent_partial, stack_partial), where every layer in front has a sample - the fractions of light are indexed by the number of sampled layers in front. Incoherent layers: an exponential that integrates to the absorption up to the deepest sample, hence to more over the layer (incoherent_partial). The threshold is compared with the light reaching the layer, not with the light absorbed (threshold_refuted); the value at one position depends on the others (positions_refuted)."
  },
  {
   "property": "C151",
   "status": "partial",
   "theorems": [
    "C151_sellmeier",
    "C151_powers",
    "C151_gases",
    "C151_herzberger",
    "C151_retro",
    "C151_exotic",
    "C151_resonances_partial",
    "C151_resonances_refuted",
    "C151_range"
   ],
   "note": "Formulas 1, 2, 3, 5, 6, 7, 8, 9 for any coefficients; formula 4 with at most one power (resonances_partial). With two powers the second pair is read one place too early (resonances_refuted)."
  },
  {
   "property": "C152",
   "status": "partial",
   "theorems": [
    "C152_independent",
    "C152_rows",
    "C152_formula",
    "C152_points_refuted",
    "C152_missing",
    "C152_nodes"
   ],
   "note": "Numbers are real. Proved for tables of n and k and for formulas alone. A formula followed by a table of k is stored at the number of rows of the table, not the number of points asked for (points_refuted)."
  },
  {
   "property": "C153",
   "status": "partial",
   "theorems": [
    "C153_download",
    "C153_replace",
    "C153_keep",
    "C153_then_nodes",
    "C153_first_use_refuted",
    "C153_failed_refuted",
    "C153_folder"
   ],
   "note": "Confirmed download and declined download proved. download_db() as the manual gives it downloads nothing when there is no file (first_use_refuted); a failed download has already replaced the tables (failed_refuted)."
  },
  {
   "property": "C154",
   "status": "partial",
   "theorems": [
    "C154_pole",
    "C154_lorentz",
    "C154_drude",
    "C154_gauss",
    "C154_sum_partial",
    "C154_order",
    "C154_shape_refuted",
    "C154_units",
    "C154_passive_partial",
    "C154_poles_refuted",
    "C154_cauchy",
    "C154_construct",
    "C154_edit",
    "C154_add"
   ],
   "note": "Poles exactly at the energy are outside the model. With at least one oscillator, and segments only at single wavelengths (sum_partial, passive_partial): without an oscillator the result has no longer the shape of the wavelengths and segments refuse arrays (shape_refuted); with poles only a negative dielectric constant gives nan (poles_refuted)."
  },
  {
   "property": "C155",
   "status": "partial",
   "theorems": [
    "C155_linear",
    "C155_sign",
    "C155_constant",
    "C155_gauss_partial",
    "C155_above_refuted",
    "C155_segments_refuted"
   ],
   "note": "The quadrature is the exact integral. Proved between 0.01 and 4.99 eV. The integral stops at 5 eV, and above that energy it does not exist (above_refuted); the segment oscillator integrates a constant (segments_refuted)."
  },
  {
   "property": "C156",
   "status": "partial",
   "theorems": [
    "C156_balance",
    "C156_missing",
    "C156_function_refuted",
    "C156_element",
    "C156_partition",
    "C156_shading_refuted"
   ],
   "note": "At one wavelength. Balance and partition proved. Shading is not taken off the elements, which generate more than the cell is said to absorb (shading_refuted); a function as reflectance, as documented, is a TypeError (function_refuted)."
  },
  {
   "property": "C157",
   "status": "partial",
   "theorems": [
    "C157_single",
    "C157_mean",
    "C157_balance",
    "C157_word_refuted",
    "C157_cell",
    "C157_profile"
   ],
   "note": "S4 is an arbitrary function of what it has been told, the exact condition on it is in the statements. Proved for 's', 'p', 'u' and pairs of amplitudes; where a layer gives power back the sum is greater than one by that amount (balance). Any other word for unpolarised light gives sums over both polarisations per layer in place of A (word_refuted). The search for the layer at a depth is from the tmm package, outside the repository."
  },
  {
   "property": "C158",
   "status": "partial",
   "theorems": [
    "C158_options",
    "C158_fresh_partial",
    "C158_leak_refuted",
    "C158_unknown"
   ],
   "note": "The dictionary of defaults is updated in place: S4 gets the last assignment of the whole session (options). Holds if no earlier call has set an option (fresh_partial), else not (leak_refuted)."
  },
  {
   "property": "C159",
   "status": "partial",
   "theorems": [
    "C159_shapes_partial",
    "C159_constants",
    "C159_layers",
    "C159_temperature_refuted",
    "C159_kind_refuted"
   ],
   "note": "Layers without restriction; shapes for materials that print differently (shapes_partial). Materials that differ in temperature only print the same and share constants (temperature_refuted); a type in any other spelling is dropped (kind_refuted)."
  },
  {
   "property": "C160",
   "status": "partial",
   "theorems": [
    "C160_table",
    "C160_ragged",
    "C160_sign_refuted",
    "C160_module_partial",
    "C160_column_refuted",
    "C160_heading_refuted"
   ],
   "note": "Tables proved. Rows beginning with a blank or a sign are not seen at all and an empty array is returned (sign_refuted). For modules, points are proved if a blank or sign comes before the first digit (module_partial); a voltage printed in the first column is dropped (column_refuted), and a heading with a digit in second place is an error (heading_refuted). float is an arbitrary partial function."
  },
  {
   "property": "C161",
   "status": "partial",
   "theorems": [
    "C161_engine",
    "C161_default",
    "C161_missing",
    "C161_legacy_refuted",
    "C161_config_refuted"
   ],
   "note": "An engine that is given is used, and none is refused. The default is frozen when the module is imported (default): a later change of the configuration has no effect (config_refuted). The two old names pass a class for a path and always raise TypeError (legacy_refuted)."
  },
  {
   "property": "C162",
   "status": "partial",
   "theorems": [
    "C162_result",
    "C162_exhausted",
    "C162_empty",
    "C162_convergence",
    "C162_individuals_partial",
    "C162_individuals_refuted"
   ],
   "note": "The algorithm (yabox, outside the repository) is an arbitrary sequence of steps with its arrays. Result and both lists of numbers proved without restriction. The list of individuals holds views of the live array: right if rows are never written again (individuals_partial), else not (individuals_refuted)."
  },
  {
   "property": "C163",
   "status": "partial",
   "theorems": [
    "C163_parallel",
    "C163_again_partial",
    "C163_again_refuted"
   ],
   "note": "Same values proved for the first run. A second run with processes raises ValueError, the pool has been terminated (again_refuted); without processes it can be repeated (again_partial)."
  },
  {
   "property": "C94",
   "status": "partial",
   "theorems": [
    "C94_edge",
    "C94_weights",
    "C94_overlap",
    "C94_staircase",
    "C94_lorentz",
    "C94_hwhm_refuted",
    "C94_exciton_args",
    "C94_binding",
    "C94_dimension",
    "C94_masses",
    "C94_total",
    "C94_default_refuted",
    "C94_emission",
    "C94_voltage_refuted",
    "C94_hydrogen",
    "C94_gauss",
    "C94_excitons",
    "C94_spectrum"
   ],
   "note": "Edges, weights, overlap, staircase, excitons, polarisation and emission proved; the area of the Gaussian line is not. The parameter called hwhm is the full width of the Lorentzian and twice the standard deviation of the Gaussian (hwhm_refuted); espace has a default that is a TypeError (default_refuted); calc_emission does not use the voltage (voltage_refuted). The effective masses are those in the middle of the arrays (masses)."
  },
  {
   "property": "C164",
   "status": "proved",
   "theorems": [
    "C164_zone",
    "C164_line",
    "C164_direction",
    "C164_critical"
   ],
   "note": "Arithmetic in R. Lattice constant positive, vector not zero."
  },
  {
   "property": "C165",
   "status": "partial",
   "theorems": [
    "C165_walk",
    "C165_single_refuted",
    "C165_names"
   ],
   "note": "For at least two steps and a way of positive length. With one step every position is nan (single_refuted)."
  },
  {
   "property": "C166",
   "status": "partial",
   "theorems": [
    "C166_roles_partial",
    "C166_refused",
    "C166_alias_refuted",
    "C166_effect_refuted"
   ],
   "note": "Refusals proved. Roles if the objects of the ends do not occur inside (roles_partial): with one barrier object everywhere the barriers become interlayers (alias_refuted). A unit that is refused has changed the layers nevertheless (effect_refuted)."
  },
  {
   "property": "C167",
   "status": "partial",
   "theorems": [
    "C167_average",
    "C167_defined",
    "C167_probability",
    "C167_mean_refuted",
    "C167_lost_refuted"
   ],
   "note": "Bounds, existence and probabilities proved. The last interval of every layer is left out of the slice: neither is the average that of the layer (mean_refuted) nor do the probabilities add up to one for a state inside the unit (lost_refuted)."
  },
  {
   "property": "C168",
   "status": "partial",
   "theorems": [
    "C168_edges_partial",
    "C168_masses_partial",
    "C168_again_refuted",
    "C168_strain_refuted"
   ],
   "note": "For distinct layers and materials (edges_partial, masses_partial); kp8x8_bulk and the strain shifts are arbitrary functions. Outside the kp8x8_bulk mode the shift of the valence band has the wrong sign (strain_refuted) and solving again multiplies the masses by the electron mass once more (again_refuted)."
  },
  {
   "property": "C169",
   "status": "partial",
   "theorems": [
    "C169_states_partial",
    "C169_sum",
    "C169_shared_refuted",
    "C169_barrier_refuted",
    "C169_levels"
   ],
   "note": "For distinct materials (states_partial); erfc is used only through erfc 0 = 1 and its range. A material shared by layers gets the values of the last one (shared_refuted); barriers get also what leaks into them, contrary to the docstring (barrier_refuted)."
  },
  {
   "property": "C170",
   "status": "partial",
   "theorems": [
    "C170_edge",
    "C170_absorption_partial",
    "C170_total_refuted",
    "C170_adachi_refuted",
    "C170_units_refuted"
   ],
   "note": "For distinct materials: position of the edge and every value (edge, absorption_partial). Barriers are cut at the edge as well and wells get only the excess over the edge, contrary to the docstring. The absorption of the unit is that of its last layer (total_refuted); use_Adachi has no effect, as the Adachi function is handed a string and raises inside the except (adachi_refuted); with energies as parameters the wavelengths are 10^18 times too long (units_refuted)."
  },
  {
   "property": "C171",
   "status": "partial",
   "theorems": [
    "C171_effective_partial",
    "C171_repeat_refuted",
    "C171_absorption_refuted",
    "C171_twice_refuted"
   ],
   "note": "For distinct materials and a rising grid of wavelengths (effective_partial); nan values are not followed. Without the keyword repeat the result is lost in an AttributeError (repeat_refuted); without absorption there is no result (absorption_refuted); a second call counts the confinement twice (twice_refuted)."
  },
  {
   "property": "C172",
   "status": "partial",
   "theorems": [
    "C172_entries_partial",
    "C172_flag",
    "C172_normal",
    "C172_sign_refuted"
   ],
   "note": "tan(psi) exp(i Delta) is the ratio or its conjugate (entries_partial): folding Delta into [180, 360] loses the sign of the phase, so two films of different thickness with conjugate ratios cannot be told apart (sign_refuted). Where rs = 0 the model has one undefined value for both numbers."
  },
  {
   "property": "C173",
   "status": "partial",
   "theorems": [
    "C173_curve_partial",
    "C173_boltzmann",
    "C173_default",
    "C173_tail_refuted"
   ],
   "note": "For absorptances that vanish below the gap and grids of photon energies without the voltages (curve_partial): at such an energy the current is not a number. An absorptance with a tail below the gap emits less than nothing and the dark current falls with the voltage (tail_refuted). j01 is not set in this mode."
  },
  {
   "property": "C174",
   "status": "partial",
   "theorems": [
    "C174_file",
    "C174_missing",
    "C174_flags",
    "C174_unused",
    "C174_negative_refuted",
    "C174_albedo_refuted"
   ],
   "note": "Proved. The selectors are python list indices: a negative one is taken from the end instead of being refused (negative_refuted). Card 10d needs IALBDG = 1, while its counterpart 10a needs IALBDX = -1, so that a ground albedo given with the flag -1 is not written (albedo_refuted). The statement and the tables follow the code in both."
  },
  {
   "property": "C175",
   "status": "partial",
   "theorems": [
    "C175_merge",
    "C175_options",
    "C175_update",
    "C175_spectrum_partial",
    "C175_unknown",
    "C175_missing",
    "C175_fails",
    "C175_rows",
    "C175_spectral2",
    "C175_outputs_refuted"
   ],
   "note": "The program and np.loadtxt are arbitrary functions; the target directory is not modelled. The spectrum for all outputs but one (spectrum_partial): Extraterrestial and True direct have the same column (outputs_refuted). A missing option is reported as an unknown output (missing)."
  },
  {
   "property": "C176",
   "status": "partial",
   "theorems": [
    "C176_one",
    "C176_first",
    "C176_single",
    "C176_redirect",
    "C176_namespace_partial",
    "C176_tagged_partial",
    "C176_alias_refuted"
   ],
   "note": "Instances proved for all programs whose constructors and methods do not use singletons themselves. The namespace for distinct functions (namespace_partial): a function under two names is given away under the first only (alias_refuted)."
  },
  {
   "property": "C177",
   "status": "partial",
   "theorems": [
    "C177_alloy",
    "C177_zero",
    "C177_absent",
    "C177_simple",
    "C177_fraction_refuted",
    "C177_twice_refuted",
    "C177_database"
   ],
   "note": "Proved for names that have the element once, which are all in the databases but one (database): SiPOLY has no element Poly and the same texts for every fraction (fraction_refuted). A name with the element twice has no text (twice_refuted)."
  },
  {
   "property": "C178",
   "status": "partial",
   "theorems": [
    "C178_energies",
    "C178_wavelengths_partial",
    "C178_transparent",
    "C178_absorbs",
    "C178_parameters",
    "C178_unused",
    "C178_zero_refuted",
    "C178_energy_refuted"
   ],
   "note": "The relation of n and k to the dielectric constant is that of two complex roots of which the real parts are returned, as the real part of the dielectric constant has an imaginary part from the damped logarithm. With wavelengths the energies returned are in the opposite order of n, k and alpha (wavelengths_partial, energy_refuted). B1, B11, Gamma and the lattice constant are needed but have no effect (unused); an alloy of fraction zero is looked up without it (zero_refuted)."
  },
  {
   "property": "C179",
   "status": "partial",
   "theorems": [
    "C179_front",
    "C179_rear",
    "C179_regions",
    "C179_depletion",
    "C179_widths",
    "C179_parameters",
    "C179_doping",
    "C179_recombination",
    "C179_dark",
    "C179_junction_partial",
    "C179_current",
    "C179_light",
    "C179_conservation",
    "C179_passive_refuted",
    "C179_permittivity_refuted",
    "C179_forward_refuted",
    "C179_dropped_refuted",
    "C179_incoming",
    "C179_intrinsic"
   ],
   "note": "Currents, regions, widths, dark currents, light and conservation proved, for depleted regions inside their layers. Energies at which the absorption length is a diffusion length are left out of the arrays of a junction (junction_partial, dropped_refuted). The passive loss does not allow for reflection, shading and junctions (passive_refuted); the permittivity of the material is multiplied by that of the vacuum twice (permittivity_refuted); from the built-in voltage on the current is not a number (forward_refuted). The printing of parameters is not modelled."
  },
  {
   "property": "C180",
   "status": "partial",
   "theorems": [
    "C180_components",
    "C180_character",
    "C180_confined",
    "C180_upper_order",
    "C180_electron_bands",
    "C180_hole_bands",
    "C180_wave_vectors",
    "C180_top_band_refuted",
    "C180_edges",
    "C180_field",
    "C180_lower_order_refuted",
    "C180_total_refuted",
    "C180_barrier_refuted",
    "C180_threshold_refuted",
    "C180_no_light_hole_refuted",
    "C180_electron_zero"
   ],
   "note": "Bands, characters, confinement, order of the upper levels and results at k = 0 proved for every eigenvalue solver. Lower levels stay in the order of the solver (lower_order_refuted); both components of a mixed level are normalised to one (total_refuted); heavy levels below their own barrier count as confined (barrier_refuted); small second components are compared with the first ones in the upper block (threshold_refuted); when all levels asked for are confined, the last electron band is infinite except at k = 0 (top_band_refuted); schrodinger fails if one kind of carrier has no level (no_light_hole_refuted)."
  },
  {
   "property": "C181",
   "status": "partial",
   "theorems": [
    "C181_curve",
    "C181_parabolas",
    "C181_guess",
    "C181_normal",
    "C181_weights_refuted",
    "C181_bands",
    "C181_kp_bands",
    "C181_wave_vector_refuted",
    "C181_point_masses",
    "C181_direction",
    "C181_in_plane",
    "C181_average",
    "C181_bulk",
    "C181_isotropic"
   ],
   "note": "Bands, parabolic fits, first guess, normal equation, averages, point masses and the whole calculation for decoupled materials proved for every eigenvalue solver and every fit that minimises the sum of squares. The weights are passed as standard deviations and so favour the points far from the centre (weights_refuted); kx and ky of kp_bands have no effect (wave_vector_refuted). Plots are not modelled."
  },
  {
   "property": "C182",
   "status": "partial",
   "theorems": [
    "C182_created",
    "C182_parameters",
    "C182_frame",
    "C182_declined",
    "C182_question",
    "C182_restart",
    "C182_restart_data",
    "C182_case_refuted",
    "C182_used_refuted",
    "C182_alloy_refuted",
    "C182_missing_file_refuted",
    "C182_overwrite_refuted",
    "C182_failed_refuted"
   ],
   "note": "Proved: data, parameters, frame, refusal, question and the next session, for a configuration whose custom source is the file of custom parameters. A name that differs in case takes the data of another material without a question (case_refuted); a material used before keeps its old data in the session (used_refuted); an alloy looks for n and k where they are not (alloy_refuted); a parameter file that is not there is not noticed (missing_file_refuted); overwriting keeps parameters that the new file does not have (overwrite_refuted); the n data are replaced although the k file is missing (failed_refuted). Folders are not modelled as files."
  },
  {
   "property": "C183",
   "status": "partial",
   "theorems": [
    "C183_load",
    "C183_only_dpol",
    "C183_blank",
    "C183_append",
    "C183_dpol_units_refuted",
    "C183_angles_refuted",
    "C183_dpol_mixed_refuted"
   ],
   "note": "Loading (load) and appending of points (append) proved for all files of well-formed lines. An empty line or an angle with depolarisations only makes the file unreadable (blank, only_dpol). Depolarisations keep the wavelengths of the file (dpol_units_refuted) and get permuted entries when appended (dpol_mixed_refuted); new angles are not in the list of angles (angles_refuted). The order of equal wavelengths is that of a stable sort."
  },
  {
   "property": "C184",
   "status": "partial",
   "theorems": [
    "C184_update",
    "C184_same",
    "C184_order",
    "C184_short",
    "C184_mse",
    "C184_mse_frame",
    "C184_zero",
    "C184_widths",
    "C184_frozen",
    "C184_fit",
    "C184_correlations",
    "C184_stale_refuted",
    "C184_psi_error_refuted",
    "C184_unknown_refuted",
    "C184_letters_refuted",
    "C184_zero_division",
    "C184_set"
   ],
   "note": "Variables, their order, the error of stacks with fresh caches, exact fits, fits of widths, the end of a fit and correlations proved. Optical constants are cached by wavelengths, so that parameters of a model have no effect on the error after its first evaluation (frozen, stale_refuted); psi is weighted with its own value (psi_error_refuted); names that do not exist can be set (unknown_refuted) and names outside a list are read letter by letter (letters_refuted); few points are a division by zero (zero_division). calculate_ellipsometry is a parameter here (C172 has it); plots and mixed layers are not modelled; the cache is unbounded."
  },
  {
   "property": "C185",
   "status": "partial",
   "theorems": [
    "C185_params",
    "C185_not_found",
    "C185_selected",
    "C185_sections_refuted",
    "C185_broad",
    "C185_lorentz",
    "C185_e2",
    "C185_exciton",
    "C185_e0",
    "C185_e1",
    "C185_eid",
    "C185_total",
    "C185_optical",
    "C185_sellmeier",
    "C185_sellmeier_odd",
    "C185_again",
    "C185_frame",
    "C185_leak_refuted",
    "C185_documented_refuted",
    "C185_unknown"
   ],
   "note": "Parameters, broadening, closed forms of all seven oscillators, sums, optical constants, repeated evaluation with dictionaries of their own and frame conditions proved. Arguments of an oscillator are written into the dictionary of its material: refuted for shared dictionaries. The arguments documented for E_ID and E0_Exciton raise KeyError, parameters by arguments only raise TypeError for four functions called directly, an unterminated section takes in the next: refuted."
  },
  {
   "property": "C186",
   "status": "partial",
   "theorems": [
    "C186_regions",
    "C186_collected",
    "C186_efficiencies",
    "C186_eqe",
    "C186_depleted",
    "C186_superposition",
    "C186_reference",
    "C186_depleted_refuted",
    "C186_voltages_refuted",
    "C186_parameters",
    "C186_intrinsic_refuted",
    "C186_sides"
   ],
   "note": "Regions, bounds of collection, efficiencies, superposition, agreement of currents and efficiencies, and parameters proved (mode green, the quadrature is the integral). One slice in 1001 of the depleted region is never counted, so a fully depleted junction has an internal efficiency of 1000/1001: refuted. Photocurrents use the depletion widths at the voltage nearest to zero of those asked for, so currents depend on the list: refuted. The intrinsic density of the p region is never used: refuted."
  },
  {
   "property": "C187",
   "status": "partial",
   "theorems": [
    "C187_profile",
    "C187_absorbed",
    "C187_last_refuted",
    "C187_balance",
    "C187_balance_refuted",
    "C187_flat",
    "C187_flat_trans_refuted"
   ],
   "note": "The profile at all depths but the last, its integral, the transmission and the function of wavelengths proved. The last depth asked for always gets zero (last_refuted); the transmission is not scaled by the light that enters, so the balance holds exactly if all light enters (balance, balance_refuted); the transmission of a junction of kind DB is its absorption (flat_trans_refuted)."
  },
  {
   "property": "C188",
   "status": "partial",
   "theorems": [
    "C188_set_get",
    "C188_read",
    "C188_deprecated_partial",
    "C188_deprecated_refuted",
    "C188_section_refuted"
   ],
   "note": "Setting, reading and listing proved for paths below the folder of the package or without its name in them; the deprecated functions equal their replacements except add_source, set_location_of_spice, set_location_of_smarts and check_user_config, which call methods that do not exist and raise AttributeError for all arguments (deprecated_refuted). Reading through a section leaves SOLCORE_ROOT in the text (section_refuted). Percent interpolation and the order of options are not modelled; printing is modelled as no change."
  },
  {
   "property": "C189",
   "status": "partial",
   "theorems": [
    "C189_machine",
    "C189_on_curve",
    "C189_undo",
    "C189_saved",
    "C189_unfinished_refuted",
    "C189_files",
    "C189_library_refuted",
    "C189_order_refuted"
   ],
   "note": "Invariant of the machine, snapping, undo, saved file and list of files proved for all sequences of events. A complete set that is not confirmed before Escape is lost (unfinished_refuted); the compositions are sorted as texts (order_refuted); the class only works when its module is run as a program, since gather_files reads a global variable (library_refuted). Drawing, the loop of the window and the text of the file are not modelled."
  },
  {
   "property": "C190",
   "status": "partial",
   "theorems": [
    "C190_sources",
    "C190_read",
    "C190_removed",
    "C190_careful",
    "C190_replaced_refuted",
    "C190_kept_refuted",
    "C190_again_refuted",
    "C190_read_name"
   ],
   "note": "Names, read() and removal proved for all histories, the database for histories of new names, removals with re-reading and full readings. Data of a replaced source and of one removed without re-reading stay, and reading one source again puts it before later ones (replaced_refuted, kept_refuted, again_refuted). Files are well formed and do not change."
  },
  {
   "property": "C191",
   "status": "partial",
   "theorems": [
    "C191_guess",
    "C191_guess_refuted",
    "C191_roundtrip",
    "C191_name_refuted",
    "C191_same_refuted"
   ],
   "note": "The round trip is proved for the file renamed to critical_points.txt, with the printing and reading of floats as hypotheses (reading inverts printing, no spaces). Under the name the picker uses nothing is loaded and nothing raised (name_refuted); a dash before the number or digits in the name of the material are taken for the composition (guess_refuted); compositions equal as numbers but not as texts overwrite each other (same_refuted)."
  },
  {
   "property": "C192",
   "status": "partial",
   "theorems": [
    "C192_line",
    "C192_width_refuted",
    "C192_mass",
    "C192_electrons",
    "C192_holes",
    "C192_density_nonneg",
    "C192_wave",
    "C192_waves",
    "C192_trim_refuted",
    "C192_bands",
    "C192_options",
    "C192_options_refuted"
   ],
   "note": "Line shape, masses, densities of both kinds, wavefunctions, band diagrams and options proved. The argument hwhm of the line is its full width (width_refuted); thresholds of one half or more can leave nothing of a function and raise (trim_refuted); split_schrodinger_graph ignores the options given but stores them in the defaults of the module, where all later graphs find them (options_refuted). Constant functions (division by zero) raise in the model where numpy warns; drawing is not modelled."
  },
  {
   "property": "C193",
   "status": "partial",
   "theorems": [
    "C193_square",
    "C193_flatten",
    "C193_version_refuted",
    "C193_colours_kept",
    "C193_colours_differ",
    "C193_colours_refuted",
    "C193_legend",
    "C193_legend_refuted",
    "C193_colour",
    "C193_unknown",
    "C193_blank_refuted"
   ],
   "note": "Flattening, colours of plain data, legends of labelled data, table of colours and square axes proved. From Python 3.10 on collections.Iterable does not exist and no graph with data can be made (version_refuted). Data without colour behind data with colours share one (colours_refuted); unlabelled lines misplace entries of the legend (legend_refuted); the empty name is found on the blank line of the table and raises IndexError (blank_refuted). The name of a colour is compared as a text instead of as a regular expression; drawing by matplotlib is not modelled."
  },
  {
   "property": "C194",
   "status": "partial",
   "theorems": [
    "C194_search",
    "C194_exact_refuted",
    "C194_values",
    "C194_txt",
    "C194_missing",
    "C194_folder_refuted",
    "C194_same",
    "C194_csv",
    "C194_csv_single",
    "C194_csv_missing",
    "C194_csv_refuted"
   ],
   "note": "Searches, text files and csv files proved. An underscore or percent sign in the term is a wildcard even with exact (exact_refuted); a folder with .txt in its name makes the export fail (folder_refuted); csv files pair n and k by position if there are as many of both, even at different wavelengths (csv_refuted). What was written before an error is not shown; makedirs adds the folder alone."
  },
  {
   "property": "C195",
   "status": "partial",
   "theorems": [
    "C195_structure",
    "C195_role_refuted",
    "C195_gap",
    "C195_other",
    "C195_last_refuted",
    "C195_order_refuted",
    "C195_fallback_refuted",
    "C195_qw_refuted",
    "C195_qw_device"
   ],
   "note": "Structures of devices, truncation at the gap for increasing wavelengths and the properties of the device proved. A missing role becomes the text None (role_refuted); with a gap beyond all wavelengths the last one loses its absorption (last_refuted), and for decreasing wavelengths the wrong side is removed (order_refuted); without data LoadAbsorption raises instead of using Adachi's model or zero (fallback_refuted); SolveQWproperties always ends in an exception, sys.exit at best (qw_refuted). Texts of numbers are taken to be read back as they were; materials made at the end of SolveQWproperties are not modelled."
  },
  {
   "property": "C196",
   "status": "partial",
   "theorems": [
    "C196_mesh",
    "C196_values",
    "C196_size",
    "C196_size_refuted",
    "C196_interface_refuted",
    "C196_number",
    "C196_removed",
    "C196_device",
    "C196_smoothing"
   ],
   "note": "Order, ends, master nodes, values, removal and number of nodes proved. At a master node inside the device the number of parts is the ceiling of a division by zero, so that the mesh depends on the compiler (interface_refuted; all other theorems hold for every outcome); the last element is divided into 1/Growth parts without regard to the smallest size and the mesh can outgrow the arrays of 6001 nodes (size_refuted). Rounding is idealised."
  },
  {
   "property": "C197",
   "status": "partial",
   "theorems": [
    "C197_boundary",
    "C197_type",
    "C197_dynamic",
    "C197_dynamic_refuted",
    "C197_single",
    "C197_light",
    "C197_iqe_flux",
    "C197_surfaces",
    "C197_closed",
    "C197_surfaces_refuted",
    "C197_absorption",
    "C197_absorption_refuted",
    "C197_flux_linear"
   ],
   "note": "Velocities, light, flags and absorption proved for all sequences of calls. Dynamic is not reset, so that a mesh with a given number of points is adapted once a dynamic one was used (dynamic_refuted); three wavelengths are taken for none and replaced by the next table (absorption_refuted); RunIV after light at open circuit keeps a surface without recombination (surfaces_refuted). That the type of a boundary has no effect is C197_type. Blanks at the end of texts are left out, rounding is idealised."
  },
  {
   "property": "C198",
   "status": "partial",
   "theorems": [
    "C198_alloy",
    "C198_short",
    "C198_bare",
    "C198_absorption",
    "C198_adachi_refuted",
    "C198_hidden_refuted"
   ],
   "note": "Texts of alloys proved, and that names of up to four letters, such as all binaries, raise KeyError and longer names without parameters IndexError. The model of Adachi takes a material and not a text, so that it always fails: the absorption of data is used even if the model is asked for and is the only one there is (absorption, adachi_refuted). A parameter that comes before the element hides it (hidden_refuted)."
  }
 ]
}