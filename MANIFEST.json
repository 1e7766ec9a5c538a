{
 "claims": [
  {
   "property": "C01",
   "status": "proved",
   "theorems": [
    "C01_uv2xyz_unit",
    "C01_uv2xyz_hemisphere"
   ],
   "note": ""
  },
  {
   "property": "C02",
   "status": "proved",
   "theorems": [
    "C02_uv_roundtrip_flipped",
    "C02_uv_roundtrip_upper",
    "C02_uv_roundtrip_lower_is_mirrored"
   ],
   "note": "exact reals; closed upper square and open lower square (edges of the lower square are identified with the horizon by the map)"
  },
  {
   "property": "C03",
   "status": "proved",
   "theorems": [
    "C03_xyz_roundtrip_flipped",
    "C03_xyz_roundtrip_upper",
    "C03_xyz_roundtrip_lower_is_mirrored",
    "C03_axes"
   ],
   "note": "with flipu=True/xsign=-1 every unit vector; with the defaults only the closed upper hemisphere, lower hemisphere proved mirrored"
  },
  {
   "property": "C04",
   "status": "proved",
   "theorems": [
    "C04_xyz2uv_range",
    "C04_xyz2uv_normalize"
   ],
   "note": ""
  },
  {
   "property": "C05",
   "status": "proved",
   "theorems": [
    "C05_uv2xy_radius",
    "C05_uv2xy_lifts_to_uv2xyz"
   ],
   "note": ""
  },
  {
   "property": "C06",
   "status": "proved",
   "theorems": [
    "C06_uv2ij_range",
    "C06_uv2bin_range"
   ],
   "note": ""
  },
  {
   "property": "C07",
   "status": "proved",
   "theorems": [
    "C07_bin_roundtrip",
    "C07_bin2uv_injective"
   ],
   "note": "exact reals; C121 has the round trip in binary64"
  },
  {
   "property": "C08",
   "status": "proved",
   "theorems": [
    "C08_bin_is_cell",
    "C08_top_edge_wraps"
   ],
   "note": ""
  },
  {
   "property": "C09",
   "status": "proved",
   "theorems": [
    "C09_skybin_roundtrip",
    "C09_skybin_below_horizon"
   ],
   "note": "tol=0; xyz2skybin with a tolerance is C115"
  },
  {
   "property": "C10",
   "status": "partial",
   "theorems": [
    "C10_tp2xyz_unit",
    "C10_tp_roundtrip_partial",
    "C10_tp_roundtrip_in_caps",
    "C10_xyz_roundtrip_partial",
    "C10_xyz_roundtrip_error",
    "C10_xyz_roundtrip_refuted",
    "C10_tpnorm_range"
   ],
   "note": "exact round trip outside two polar caps (1e-10 and 1e-10+1e-5*pi rad); inside them azimuth becomes pi; error bound for every direction but -z; -z maps to +z (refuted)"
  },
  {
   "property": "C11",
   "status": "partial",
   "theorems": [
    "C11_aa2xyz_unit",
    "C11_aa_roundtrip_partial",
    "C11_aa_roundtrip_west",
    "C11_aa_roundtrip_refuted",
    "C11_xyz_aa_roundtrip_partial",
    "C11_nadir_refuted"
   ],
   "note": "az in (-90,270] round trips; documented (-180,180) refuted (west of -90 comes back +360); altitude -90 maps to the zenith (refuted)"
  },
  {
   "property": "C12",
   "status": "proved",
   "theorems": [
    "C12_theta_chord_theta",
    "C12_chord_theta_chord",
    "C12_chord_is_distance"
   ],
   "note": ""
  },
  {
   "property": "C13",
   "status": "proved",
   "theorems": [
    "C13_radians_range",
    "C13_radians_symmetric",
    "C13_radians_zero",
    "C13_radians_pi",
    "C13_cosine",
    "C13_degrees"
   ],
   "note": ""
  },
  {
   "property": "C14",
   "status": "partial",
   "theorems": [
    "C14_rmtx_yp_rotations",
    "C14_rmtx_yp_reversible",
    "C14_rmtx_yp_maps_to_z",
    "C14_rmtx_yp_maps_near_z",
    "C14_rmtx_yp_z",
    "C14_rmtx_yp_minus_z",
    "C14_rmtx_yp_exact_everywhere_refuted"
   ],
   "note": "exact outside the lower cap / axis tolerance; within 1e-7 everywhere; exactness everywhere refuted"
  },
  {
   "property": "C15",
   "status": "proved",
   "theorems": [
    "C15_rotation",
    "C15_isometry",
    "C15_additive",
    "C15_inverse",
    "C15_fixes_axis",
    "C15_degrees",
    "C15_orientation"
   ],
   "note": ""
  },
  {
   "property": "C16",
   "status": "proved",
   "theorems": [
    "C16_isometry",
    "C16_involution",
    "C16_fixes_plane",
    "C16_negates_normal",
    "C16_valid",
    "C16_all_pairs",
    "C16_masked_all"
   ],
   "note": ""
  },
  {
   "property": "C17",
   "status": "proved",
   "theorems": [
    "C17_norm_unit",
    "C17_norm_direction",
    "C17_norm_idempotent",
    "C17_norm_scale",
    "C17_norm1_nonzero",
    "C17_norm1_zero"
   ],
   "note": ""
  },
  {
   "property": "C18",
   "status": "proved",
   "theorems": [
    "C18_fisheye_radius",
    "C18_fisheye_azimuth",
    "C18_flip_mirrors"
   ],
   "note": ""
  },
  {
   "property": "C19",
   "status": "partial",
   "theorems": [
    "C19_view_world_inverse",
    "C19_view_world_rigid",
    "C19_view_direction_to_z_partial",
    "C19_view_direction_near_z",
    "C19_view_direction_to_z_refuted"
   ],
   "note": "rotation inverse and rigid for every direction and angle; the view direction goes exactly to +z outside the axis/pole tolerance band of norm1/rmtx_yp (regular_dir), within 1e-7 everywhere, exactness everywhere refuted"
  },
  {
   "property": "C20",
   "status": "proved",
   "theorems": [
    "C20_uv2xyz_unit",
    "C20_uv_roundtrip",
    "C20_uv_roundtrip_360",
    "C20_xyz_roundtrip",
    "C20_center_is_view_direction"
   ],
   "note": "exact reals; closed square up to 180 degrees; for 360 views the closed front square and the open back square; the centre maps to the view direction for regular directions"
  },
  {
   "property": "C21",
   "status": "proved",
   "theorems": [
    "C21_pixel2ray_unit",
    "C21_pixel_roundtrip",
    "C21_pixelrays_roundtrip",
    "C21_ray_roundtrip"
   ],
   "note": "exact reals, every real pixel coordinate in the frame and every integer pixel"
  },
  {
   "property": "C22",
   "status": "partial",
   "theorems": [
    "C22_in_view_sound_partial",
    "C22_in_view_complete_partial",
    "C22_in_view_180",
    "C22_in_view_exact",
    "C22_in_view_complete_refuted"
   ],
   "note": "exact cone proved; sound for every view, complete only up to 0.89 of the half angle; completeness refuted for every view below 180 degrees (the chord factor shrinks the cone); exact at 180/360"
  },
  {
   "property": "C23",
   "status": "proved",
   "theorems": [
    "C23_front_half",
    "C23_back_half",
    "C23_pixelrays_two_halves",
    "C23_roundtrip_front",
    "C23_roundtrip_back"
   ],
   "note": "front half needs a regular direction, back half a regular opposite direction"
  },
  {
   "property": "C24",
   "status": "proved",
   "theorems": [
    "C24_solid_roundtrip",
    "C24_solid_view_angle"
   ],
   "note": "round trip within the guard term 1e-9; exact equality is false because of it"
  },
  {
   "property": "C25",
   "status": "partial",
   "theorems": [
    "C25_perspective_is_tan_refuted",
    "C25_smaller_angle_ignored_refuted",
    "C25_limit"
   ],
   "note": "refuted: the perspective mapper's formulas are the equisolid ones, the smaller of vv/vh is ignored; only the angle limit holds"
  },
  {
   "property": "C26",
   "status": "proved",
   "theorems": [
    "C26_mapper_uv_roundtrip",
    "C26_mapper_xyz_roundtrip"
   ],
   "note": "non-zero scale factors"
  },
  {
   "property": "C27",
   "status": "partial",
   "theorems": [
    "C27_idx_roundtrip",
    "C27_jitter_offsets",
    "C27_view_idx_square",
    "C27_view_idx_two_squares",
    "C27_view_idx_roundtrip_refuted"
   ],
   "note": "Mapper for every shape; ViewMapper for square shapes and, with uv2bin, for 2n x n; refuted for ViewMapper.idx2uv with uv2idx on other shapes"
  },
  {
   "property": "C28",
   "status": "partial",
   "theorems": [
    "C28_pixel_roundtrip_mirrored_partial",
    "C28_pixel_roundtrip_refuted"
   ],
   "note": "refuted: pixel2ray flips x while ray2pixel does not, so integer pixels come back mirrored"
  },
  {
   "property": "C29",
   "status": "partial",
   "theorems": [
    "C29_pixel_centers",
    "C29_jitter_inside_partial",
    "C29_jitter_refuted"
   ],
   "note": "centres without jitter; with jitter pixels stay in their cell when the call succeeds, but it raises ValueError for almost every frame shape because the offset array is 2-d"
  },
  {
   "property": "C30",
   "status": "partial",
   "theorems": [
    "C30_base_draw",
    "C30_view_draw",
    "C30_view_draw_360",
    "C30_view_draw_mask",
    "C30_view_draw_channels",
    "C30_square_draw_180",
    "C30_square_draw_360",
    "C30_square_draw_refuted"
   ],
   "note": "grow=0; fisheye drawing exact for every view; square drawing exact for 180/360, refuted below 180 (IndexError)"
  },
  {
   "property": "C31",
   "status": "proved",
   "theorems": [
    "C31_ang2uv_in_range",
    "C31_ang2uv_360",
    "C31_uv2ang_square",
    "C31_uv2ang_two_squares",
    "C31_uv2ang_other_shapes"
   ],
   "note": ""
  },
  {
   "property": "C32",
   "status": "proved",
   "theorems": [
    "C32_last_cap_wins",
    "C32_reset_gives_cpu_count",
    "C32_without_effective_call",
    "C32_cases_cover_every_history",
    "C32_no_effect_keeps_state",
    "C32_rejects_exactly_other_types",
    "C32_argument_wins",
    "C32_environment_number",
    "C32_environment_other_text"
   ],
   "note": "environment values as python int()/str() on ascii digits"
  },
  {
   "property": "C33",
   "status": "proved",
   "theorems": [
    "C33_pool_equals_loop",
    "C33_no_workers_equals_loop",
    "C33_loop_outcome_unique",
    "C33_every_run_ends",
    "C33_never_stuck",
    "C33_each_call_at_most_once",
    "C33_all_calls_made_on_return",
    "C33_unpackable_is_needed"
   ],
   "note": "the called function is a pure function of its argument (no state shared between calls); pool start-up and shutdown not modelled"
  },
  {
   "property": "C34",
   "status": "partial",
   "theorems": [
    "C34_process_cap_partial",
    "C34_bad_cap_rejected",
    "C34_thread_cap_refuted",
    "C34_threads_selected",
    "C34_processes_selected",
    "C34_no_pool_selected"
   ],
   "note": "process workers never exceed the cap; thread workers ignore it (refuted)"
  },
  {
   "property": "C35",
   "status": "proved",
   "theorems": [
    "C35_bytes_roundtrip",
    "C35_bytes_roundtrip_unknown_dim",
    "C35_bytes_layout",
    "C35_wrong_length_raises",
    "C35_file_append"
   ],
   "note": "single precision values as 32 bit patterns, bytes as integers"
  },
  {
   "property": "C36",
   "status": "proved",
   "theorems": [
    "C36_gray_roundtrip",
    "C36_gray_orientation",
    "C36_color_roundtrip"
   ],
   "note": "pvalue is an oracle: packs pixels in scanline order with an arbitrary pixel encoding; equality is up to that encoding"
  },
  {
   "property": "C37",
   "status": "proved",
   "theorems": [
    "C37_lum_is_179_rad",
    "C37_rad_linear",
    "C37_rad_average"
   ],
   "note": "exact reals"
  },
  {
   "property": "C38",
   "status": "partial",
   "theorems": [
    "C38_nonneg_zero",
    "C38_monotone",
    "C38_exponent_doubles_partial",
    "C38_exponent_doubles_refuted"
   ],
   "note": "holds for signed integer arrays; for uint8 arrays e-128 wraps: refuted at every non-black pixel"
  },
  {
   "property": "C39",
   "status": "partial",
   "theorems": [
    "C39_is_hdr_refuted",
    "C39_is_hdr_result"
   ],
   "note": "refuted: a text-mode read is compared with a bytes literal, so no file is ever recognised"
  },
  {
   "property": "C40",
   "status": "proved",
   "theorems": [
    "C40_load_txt"
   ],
   "note": "np.loadtxt is an arbitrary function of the file content"
  },
  {
   "property": "C41",
   "status": "partial",
   "theorems": [
    "C41_last_view",
    "C41_no_other_partial",
    "C41_one_view_refuted",
    "C41_no_pvalue_refuted"
   ],
   "note": "The last view surviving as the last line holds for every header. Absence of other VIEW, FORMAT and pvalue entries is proved for headers without blank lines when no line needs wrapping, excepting lines that end in a colon; refuted with a view line ending in a colon and with a pvalue command with an equals sign in its arguments."
  },
  {
   "property": "C42",
   "status": "partial",
   "theorems": [
    "C42_flat_partial",
    "C42_blocks_partial",
    "C42_nesting_refuted",
    "C42_once_refuted",
    "C42_total_refuted",
    "C42_nested_partial",
    "C42_same_program_refuted"
   ],
   "note": "Proved for headers of any depth of files in files in which each file ends with a line of its own and no line is repeated or follows a line of the same key or program; files that end with another file, repeated lines, commands of the same program in a row, lines of one word and totality are refuted by witnesses. textwrap.fill is an oracle that leaves lines that fit alone."
  },
  {
   "property": "C43",
   "status": "partial",
   "theorems": [
    "C43_length",
    "C43_last_value_partial",
    "C43_last_value_refuted",
    "C43_other_key_refuted",
    "C43_key_twice_refuted",
    "C43_nested_partial"
   ],
   "note": "The length holds for every header. The last value is proved for headers without repeated lines, files in files included, and different requested keys; refuted otherwise by three witnesses."
  },
  {
   "property": "C44",
   "status": "proved",
   "theorems": [
    "C44_view_roundtrip",
    "C44_options",
    "C44_no_view"
   ],
   "note": "float printing and reading is an oracle (number_format); getinfo output is the header text."
  },
  {
   "property": "C45",
   "status": "partial",
   "theorems": [
    "C45_illum_dim_partial",
    "C45_pwsl2_dim_partial",
    "C45_srcillum_dim_partial",
    "C45_illum_light_partial",
    "C45_avglum_light_partial",
    "C45_safe_dim_partial",
    "C45_irradiance_dim_partial",
    "C45_nonneg_dim_partial",
    "C45_illum_rays_partial",
    "C45_pwsl2_rays_partial",
    "C45_srcillum_rays_partial",
    "C45_irradiance_rays_partial",
    "C45_illum_held",
    "C45_illum_lum_partial",
    "C45_avglum_lum_partial",
    "C45_linear_lum",
    "C45_linear_scale",
    "C45_nonneg_partial",
    "C45_avglum_rays_refuted",
    "C45_density_rays_refuted",
    "C45_density_lum_refuted",
    "C45_pwsl2_lum_refuted",
    "C45_srcillum_lum_refuted",
    "C45_nonneg_360_refuted",
    "C45_safe_partial",
    "C45_accepted"
   ],
   "note": "every metric accepted as safe to sum is shown to sum over rays or over light, except the density; additivity proved for sets without bright rays at the view edge and omega_as_view_area=True, unrestricted over the rays an object holds; refuted: avglum and density (listed as safe to sum) over ray sets, density/pwsl2/srcillum over luminances, non-negativity for 360 degree views"
  },
  {
   "property": "C46",
   "status": "proved",
   "theorems": [
    "C46_gcr_ge_1",
    "C46_pwgcr_ge_1",
    "C46_loggcr_ge_0",
    "C46_logpwgcr_ge_0",
    "C46_gcr_uniform",
    "C46_pwgcr_uniform",
    "C46_gcr_lum",
    "C46_gcr_scale",
    "C46_pwgcr_lum",
    "C46_pwgcr_scale"
   ],
   "note": "full statement, by weighted Cauchy-Schwarz"
  },
  {
   "property": "C47",
   "status": "proved",
   "theorems": [
    "C47_dgp_range",
    "C47_dgp_ge_16",
    "C47_lowlight",
    "C47_dgp_mono",
    "C47_dark"
   ],
   "note": "full statement for illum > 0; additionally nan in the dark"
  },
  {
   "property": "C48",
   "status": "partial",
   "theorems": [
    "C48_ugr_range_partial",
    "C48_ugp_range_partial",
    "C48_ugr_no_source_partial",
    "C48_ugp_mono",
    "C48_dark_refuted",
    "C48_all_source_refuted",
    "C48_all_source"
   ],
   "note": "proved for a positive background luminance; refuted without light (nan) and when every ray is a source (inf, probability 1)"
  },
  {
   "property": "C49",
   "status": "proved",
   "theorems": [
    "C49_split",
    "C49_area",
    "C49_illum",
    "C49_backlum",
    "C49_threshold_absolute",
    "C49_threshold_task",
    "C49_no_task"
   ],
   "note": "full statement; a threshold relative to an empty task area (0/0) makes no ray a source"
  },
  {
   "property": "C50",
   "status": "proved",
   "theorems": [
    "C50_guth_range",
    "C50_ahead",
    "C50_behind",
    "C50_kim_positive",
    "C50_kim_defined",
    "C50_kim_jump"
   ],
   "note": "full statement; the Kim index is discontinuous at the view direction (1 there, below 1/5 right above it)"
  },
  {
   "property": "C51",
   "status": "partial",
   "theorems": [
    "C51_history_partial",
    "C51_reads",
    "C51_stale_refuted",
    "C51_stale",
    "C51_kept",
    "C51_dropped"
   ],
   "note": "holds for histories where assignments precede reads of the same object; refuted otherwise: functools caches are not invalidated by the setters; each defining class remembers one object per property: an old value survives reads of objects served by another class and is dropped by the same read of an object served by the same class (for the properties that read data only)"
  },
  {
   "property": "C52",
   "status": "proved",
   "theorems": [
    "C52_corrects",
    "C52_area",
    "C52_keeps"
   ],
   "note": "full statement including termination"
  },
  {
   "property": "C53",
   "status": "partial",
   "theorems": [
    "C53_dim_partial",
    "C53_clipped_partial",
    "C53_arguments_partial",
    "C53_arguments_refuted",
    "C53_own_overlap_refuted",
    "C53_short_refuted"
   ],
   "note": "single overlapping ray proved for rays no bigger than the view whose centre is outside (or not further inside than the common chord); refuted for the other overlapping rays, which get less than their overlap; the caller's omega array is overwritten, and all stray rays get the overlap of the last one"
  },
  {
   "property": "C54",
   "status": "partial",
   "theorems": [
    "C54_check_metrics",
    "C54_check_raises",
    "C54_call_base",
    "C54_call_metric",
    "C54_call_unknown",
    "C54_call_color",
    "C54_empty_maxlum_refuted"
   ],
   "note": "full statement for MetricSet and ColorMetricSet (irradiance contributes one value per channel), BaseMetricSet needs at least one ray for maxlum (raises ValueError otherwise, C54_empty_maxlum_refuted)"
  },
  {
   "property": "C55",
   "status": "proved",
   "theorems": [
    "C55_dim",
    "C55_illum",
    "C55_rows",
    "C55_plain"
   ],
   "note": "full statement"
  },
  {
   "property": "C56",
   "status": "proved",
   "theorems": [
    "C56_energy"
   ],
   "note": "full statement for unit vectors, positive thresholds, every branch, tie order and blur factor; radius 0 raises IndexError in the code and in the model"
  },
  {
   "property": "C57",
   "status": "proved",
   "theorems": [
    "C57_removed",
    "C57_unchanged",
    "C57_direction"
   ],
   "note": "full statement, plus the direction of the new ray (unit, within the radius)"
  },
  {
   "property": "C58",
   "status": "proved",
   "theorems": [
    "C58_groups",
    "C58_none"
   ],
   "note": "full statement; as many recursive calls as rays suffice; the reported direction is the mean and is not normalised"
  },
  {
   "property": "C59",
   "status": "partial",
   "theorems": [
    "C59_luminance_partial",
    "C59_color_partial",
    "C59_default_refuted",
    "C59_header_refuted",
    "C59_peak_refuted",
    "C59_unknown_name",
    "C59_pvalue"
   ],
   "note": "proved: luminance metrics use the argument, else the header, else pvalue weights (header weights within 0.001 of these are replaced); colour metrics use the argument or the header. Refuted: colour metrics without weights raise TypeError, a header word that is not a number raises ValueError, and the peak normalisation of colour images ignores the weights"
  },
  {
   "property": "C60",
   "status": "partial",
   "theorems": [
    "C60_in_range",
    "C60_ends",
    "C60_equal_weights_partial",
    "C60_equal_weights_refuted",
    "C60_unweighted",
    "C60_outside",
    "C60_none_included",
    "C60_no_weight"
   ],
   "note": "range and end points in full; equal weights agree with the linear interpolation quantile except for q in [1-1.001e-5, 1), where it is refuted (the lower datum is returned); IndexError when no weight is above the threshold; without weights it is the linear interpolation quantile of all data, whatever the threshold, and a q outside [0, 1] is a ValueError; weights that are all 0 and let in by a negative threshold are ignored"
  },
  {
   "property": "C61",
   "status": "partial",
   "theorems": [
    "C61_monotone_partial",
    "C61_monotone_refuted"
   ],
   "note": "proved outside q2 in [1-1.001e-5, 1); refuted there"
  },
  {
   "property": "C62",
   "status": "partial",
   "theorems": [
    "C62_range",
    "C62_order_partial",
    "C62_gap",
    "C62_order_refuted",
    "C62_constant_refuted"
   ],
   "note": "range and constants in full, with and without band width and resampling (weights only assumed >= 0, and > 0 at the sample itself where neither is given); where all weights vanish linear interpolation is proved; refuted for samples at one coordinate with the default width, which raise; the order is right for sorted x and refuted for unsorted x: 'resample is None' tests the function of that name and is never true"
  },
  {
   "property": "C63",
   "status": "partial",
   "theorems": [
    "C63_maximal_partial",
    "C63_order_refuted"
   ],
   "note": "full statement when the ball query lists ascending indices; refuted for other orders, which query_ball_tree does not exclude"
  },
  {
   "property": "C64",
   "status": "partial",
   "theorems": [
    "C64_up",
    "C64_down",
    "C64_down_undoes_up",
    "C64_down_any",
    "C64_smooth",
    "C64_shape_refuted",
    "C64_mixed_refuted",
    "C64_mixed_step_refuted"
   ],
   "note": "full statement for 2-d arrays in exact arithmetic, also for sizes that do not divide (mirrored border) and for smoothing; refuted for mixed up and down scaling and for the shape when the sizes do not divide; arrays with more axes are in C139, where enlarging one axis and shrinking another is shown to raise ZeroDivisionError"
  },
  {
   "property": "C65",
   "status": "proved",
   "theorems": [
    "C65_select",
    "C65_error"
   ],
   "note": "full statement for distinct non negative axes, with the complete python slice semantics"
  },
  {
   "property": "C66",
   "status": "partial",
   "theorems": [
    "C66_spread",
    "C66_inverse",
    "C66_blur",
    "C66_monotone",
    "C66_one_degree",
    "C66_no_area_refuted",
    "C66_defaults",
    "C66_outside"
   ],
   "note": "proved for every width, threshold and source with solid angle > 0; refuted for a source without solid angle (factor inf)"
  },
  {
   "property": "C67",
   "status": "partial",
   "theorems": [
    "C67_positive",
    "C67_symmetric",
    "C67_decreasing",
    "C67_between",
    "C67_quadrant_refuted",
    "C67_quadrant_partial",
    "C67_above_below_refuted",
    "C67_far"
   ],
   "note": "positivity, left/right symmetry, monotonicity and the bounds hold; refuted: the sign of x chooses both meridians, so a quadrant does not use its own pair"
  },
  {
   "property": "C68",
   "status": "proved",
   "theorems": [
    "C68_weights",
    "C68_widths"
   ],
   "note": "weights for every age; positive widths for ages 0-100 and pupils of 0.25 mm and more"
  },
  {
   "property": "C69",
   "status": "proved",
   "theorems": [
    "C69_range",
    "C69_irradiance",
    "C69_adaptation",
    "C69_half",
    "C69_odds"
   ],
   "note": "full statement"
  },
  {
   "property": "C70",
   "status": "proved",
   "theorems": [
    "C70_responses",
    "C70_score",
    "C70_weight",
    "C70_odds"
   ],
   "note": "proved with the stronger bound (sum omega)^(1/4)"
  },
  {
   "property": "C71",
   "status": "proved",
   "theorems": [
    "C71_bins",
    "C71_once",
    "C71_widths",
    "C71_geometric"
   ],
   "note": "full statement; the width is the nearest of the 31"
  },
  {
   "property": "C72",
   "status": "partial",
   "theorems": [
    "C72_partial",
    "C72_new_size_partial",
    "C72_view_refuted",
    "C72_rejected_refuted",
    "C72_black_refuted",
    "C72_full_view_refuted"
   ],
   "note": "holds for square images in one view and whenever the image size changes; refuted: a new view with an image of the same size keeps the old arrays; a rejected non square image makes the object reject good images; a black image keeps the old eccentricity; 360 degree views are never accepted"
  },
  {
   "property": "C73",
   "status": "proved",
   "theorems": [
    "C73_range",
    "C73_view",
    "C73_centre"
   ],
   "note": "full statement, also: only the image centre has emin and the value grows along rays from it"
  },
  {
   "property": "C74",
   "status": "partial",
   "theorems": [
    "C74_mean",
    "C74_same",
    "C74_dark_refuted"
   ],
   "note": "proved for positive irradiances; refuted at irradiance 0, which is treated as 1"
  },
  {
   "property": "C75",
   "status": "partial",
   "theorems": [
    "C75_rows",
    "C75_columns_partial",
    "C75_irradiance_refuted",
    "C75_empty_refuted",
    "C75_repeated_refuted"
   ],
   "note": "rows proved for every list; columns proved without irradiance. Refuted: irradiance prints three values under one name, an empty list prints the names and fails, gss or gssnb twice fails"
  },
  {
   "property": "C76",
   "status": "proved",
   "theorems": [
    "C76_solid2ang_radius",
    "C76_ang2solid_radius"
   ],
   "note": ""
  },
  {
   "property": "C77",
   "status": "partial",
   "theorems": [
    "C77_solid_is_equisolid_refuted"
   ],
   "note": "refuted: angles are converted twice"
  },
  {
   "property": "C78",
   "status": "partial",
   "theorems": [
    "C78_transform_reads_same_direction_partial",
    "C78_transform_direction_refuted"
   ],
   "note": "reads the image as if in the projection of other and returns it in the projection of self; documented direction refuted"
  },
  {
   "property": "C79",
   "status": "proved",
   "theorems": [
    "C79_in_view_is_image_circle",
    "C79_uv_square_in_view",
    "C79_in_view_pixel_in_image"
   ],
   "note": ""
  },
  {
   "property": "C80",
   "status": "partial",
   "theorems": [
    "C80_value_independent_of_argument_kind",
    "C80_sequence_argument_kept_partial",
    "C80_array_argument_kept_refuted",
    "C80_base_argument_kept_refuted"
   ],
   "note": "nested sequences are copied; ndarrays are modified in place (refuted) in both classes"
  },
  {
   "property": "C81",
   "status": "proved",
   "theorems": [
    "C81_pixel_areas_sum_to_area",
    "C81_box"
   ],
   "note": ""
  },
  {
   "property": "C82",
   "status": "partial",
   "theorems": [
    "C82_hdr2vol_aligned_partial",
    "C82_hdr2vol_360_refuted"
   ],
   "note": "holds for square images of views other than 360 degrees; refuted for 360 degree views (half of the solid angles missing)"
  },
  {
   "property": "C83",
   "status": "proved",
   "theorems": [
    "C83_omega_rotation_invariant",
    "C83_omega_nonneg",
    "C83_omega_mirror",
    "C83_omega_transpose",
    "C83_omega_on_axis",
    "C83_omega_centre"
   ],
   "note": "exact reals"
  },
  {
   "property": "C84",
   "status": "partial",
   "theorems": [
    "C84_idempotent_partial",
    "C84_idempotent_refuted",
    "C84_nested_partial",
    "C84_nested_refuted"
   ],
   "note": "Proved for headers without repeated lines, files in files included; refuted with a repeated line, or an empty file, between two lines of the same key."
  },
  {
   "property": "C85",
   "status": "partial",
   "theorems": [
    "C85_header_args_partial",
    "C85_quotes_refuted",
    "C85_apostrophe_refuted",
    "C85_empty_refuted"
   ],
   "note": "Proved for non-empty lists of lines without single quotes; refuted with quotes, with an apostrophe (raises after the output file was truncated) and for the empty list."
  },
  {
   "property": "C86",
   "status": "proved",
   "theorems": [
    "C86_grows",
    "C86_mirror",
    "C86_length",
    "C86_view"
   ],
   "note": "full statement for the Guth index; symmetry and length also for Kim"
  },
  {
   "property": "C87",
   "status": "proved",
   "theorems": [
    "C87_dgp",
    "C87_ugr",
    "C87_illum"
   ],
   "note": "full statement for illum > 0 / background luminance > 0; low light off"
  },
  {
   "property": "C88",
   "status": "proved",
   "theorems": [
    "C88_framesize",
    "C88_box",
    "C88_half"
   ],
   "note": "full statement"
  },
  {
   "property": "C89",
   "status": "partial",
   "theorems": [
    "C89_in_view",
    "C89_bounding_box_refuted"
   ],
   "note": "the box used has size sf, not that of bbox: refuted for sf different from the size of bbox (the defaults allow it)"
  },
  {
   "property": "C90",
   "status": "proved",
   "theorems": [
    "C90_cone",
    "C90_sphere"
   ],
   "note": "full statement"
  },
  {
   "property": "C91",
   "status": "partial",
   "theorems": [
    "C91_median_refuted",
    "C91_first_weight_unused",
    "C91_tie_order_refuted"
   ],
   "note": "refuted: the weight of the smallest datum is never used, and the order of ties changes the result"
  },
  {
   "property": "C92",
   "status": "partial",
   "theorems": [
    "C92_factor_refuted"
   ],
   "note": "refuted by evaluating the binary64 expression in the kernel: 93 -> 1 uses blocks of 92"
  },
  {
   "property": "C93",
   "status": "partial",
   "theorems": [
    "C93_luminance_partial",
    "C93_luminance_refuted",
    "C93_tolerance_above_one"
   ],
   "note": "holds for pixels no larger than blurtol*peaka; refuted for larger pixels, where the whole neighbourhood is absorbed"
  },
  {
   "property": "C94",
   "status": "partial",
   "theorems": [
    "C94_channels_partial",
    "C94_channels_refuted"
   ],
   "note": "holds for peakc > 1; refuted for the default: a partly visible source takes the colour of its brightest ray"
  },
  {
   "property": "C95",
   "status": "partial",
   "theorems": [
    "C95_fovea_refuted"
   ],
   "note": "refuted: the foveal density multiplies only one of the two terms of the formula, so the meridians disagree at eccentricity 0"
  },
  {
   "property": "C96",
   "status": "partial",
   "theorems": [
    "C96_range",
    "C96_closes_partial",
    "C96_closes_refuted",
    "C96_age_refuted"
   ],
   "note": "bounds for ages 10-100; closing proved for every age up to 38.2 and refuted for every age from 38.3 to 100, so settled for all whole ages"
  },
  {
   "property": "C97",
   "status": "partial",
   "theorems": [
    "C97_component",
    "C97_total",
    "C97_positive",
    "C97_small_pupil_refuted",
    "C97_kernel"
   ],
   "note": "for ages 0-100 and pupils of 0.25 mm and more; refuted for a 0.1 mm pupil, where a width is negative"
  },
  {
   "property": "C98",
   "status": "partial",
   "theorems": [
    "C98_partial",
    "C98_accepted",
    "C98_window_refuted",
    "C98_coarse_partial",
    "C98_captured_partial"
   ],
   "note": "with the point spread function on, a non negative kernel is assumed for windows of several pixels (its peak correction can make it negative; proved for one pixel); refuted for windows of less than 0.004 degrees (IndexError); 360 degree views are excluded (C72)"
  },
  {
   "property": "C99",
   "status": "proved",
   "theorems": [
    "C99_uniform",
    "C99_same"
   ],
   "note": "full statement for hemispherical and narrower windows of at least 0.004 degrees"
  },
  {
   "property": "C100",
   "status": "proved",
   "theorems": [
    "C100_history"
   ],
   "note": "full statement; scale, view and parameters as in the new object"
  },
  {
   "property": "C102",
   "status": "partial",
   "theorems": [
    "C102_irradiance_partial",
    "C102_default_refuted",
    "C102_peak_refuted",
    "C102_values"
   ],
   "note": "proved for luminance metrics, and with irradiance when weights are given and peak normalisation is off; refuted without weights (TypeError) and with peak normalisation (maxlum changes)"
  },
  {
   "property": "C101",
   "status": "partial",
   "theorems": [
    "C101_results_partial",
    "C101_own",
    "C101_distinct",
    "C101_label",
    "C101_align_label",
    "C101_align_distinct",
    "C101_outdir_partial",
    "C101_align_refuted",
    "C101_order_refuted",
    "C101_extension_refuted",
    "C101_dot_refuted",
    "C101_outdir_refuted",
    "C101_rotate_refuted",
    "C101_center_refuted",
    "C101_gssimage_refuted"
   ],
   "note": "proved for distinct .hdr images when no result is also an image of the command. Refuted: align without options writes over its image, results depend on the order when a result is also an image, images that differ in extension only (or, with outdir, in directory only) share a result, so do rotations with the same integer part, and gss and gssnb share their saved images"
  },
  {
   "property": "C103",
   "status": "partial",
   "theorems": [
    "C103_own_partial",
    "C103_first_partial",
    "C103_view_refuted",
    "C103_black_refuted",
    "C103_illums_refuted",
    "C103_empty_refuted"
   ],
   "note": "proved for square images in one view with as many illuminances as images. Refuted: every image is scored in the view of the first one, a black first image leaves all without score, and a short list of illuminances silently drops images"
  },
  {
   "property": "C104",
   "status": "proved",
   "theorems": [
    "C104_turned",
    "C104_gradient",
    "C104_rejected"
   ],
   "note": "full statement; scipy's interpolator is modelled from its documentation, images of 2 x 2 or more"
  },
  {
   "property": "C105",
   "status": "partial",
   "theorems": [
    "C105_nearest_partial",
    "C105_linear_averages",
    "C105_linear_refuted",
    "C105_fill_refuted",
    "C105_small_angle_refuted"
   ],
   "note": "proved for the nearest method without fill value. Refuted: the linear method (the default) averages four pixels because the grid is half a pixel off the pixel centres, a fill value replaces the last row and column, and every angle between 0 and 90 degrees moves a pixel of a 2 x 2 image with the nearest method"
  },
  {
   "property": "C106",
   "status": "proved",
   "theorems": [
    "C106_quarter",
    "C106_four_quarters"
   ],
   "note": "full statement"
  },
  {
   "property": "C107",
   "status": "partial",
   "theorems": [
    "C107_range_with_fill",
    "C107_nearest_values",
    "C107_constant",
    "C107_default_range_refuted"
   ],
   "note": "proved with a fill value in range, for the nearest method and for constant images. Refuted for the default, which extrapolates to negative pixels"
  },
  {
   "property": "C108",
   "status": "proved",
   "theorems": [
    "C108_centre",
    "C108_align"
   ],
   "note": "full statement for pixels whose direction is neither the view axis, its opposite, nor vertical (regular_dir)"
  },
  {
   "property": "C109",
   "status": "partial",
   "theorems": [
    "C109_order_refuted",
    "C109_centre_first",
    "C109_rotate_first_refuted"
   ],
   "note": "refuted: for quarter turns, where pixels are moved exactly, both values center first"
  },
  {
   "property": "C110",
   "status": "partial",
   "theorems": [
    "C110_same_view",
    "C110_gradient",
    "C110_linear",
    "C110_nearest_values",
    "C110_full_view_refuted"
   ],
   "note": "full statement for views of up to 180 degrees (the other view regular). Refuted for 360 degree views, from which every image is rejected with ValueError"
  },
  {
   "property": "C111",
   "status": "partial",
   "theorems": [
    "C111_solid2ang",
    "C111_ang2solid",
    "C111_nearest_values",
    "C111_rejected",
    "C111_range_refuted"
   ],
   "note": "proved for 180 degrees, for gradients (the interpolator is exact for these) and all values of the nearest method. Refuted: the linear method extrapolates at the rim and returns negative pixels for non-negative images"
  },
  {
   "property": "C112",
   "status": "partial",
   "theorems": [
    "C112_size",
    "C112_blank_name_refuted"
   ],
   "note": "proved for names without blanks; refuted for names with blanks whose last words contain an X or Y"
  },
  {
   "property": "C113",
   "status": "partial",
   "theorems": [
    "C113_roundtrip",
    "C113_options",
    "C113_none",
    "C113_no_direction",
    "C113_full_view_refuted"
   ],
   "note": "proved for views of up to 180 degrees; refuted: the header line of a 360 degree view is read back as its front half. A view line without -vd is rejected here but given the default direction by hdr2vm (C113_no_direction)"
  },
  {
   "property": "C114",
   "status": "partial",
   "theorems": [
    "C114_up_vector",
    "C114_up_vector_refuted"
   ],
   "note": "proved for every direction but straight down, for which the header names an up vector parallel to the direction (refuted)"
  },
  {
   "property": "C115",
   "status": "partial",
   "theorems": [
    "C115_near_partial",
    "C115_own",
    "C115_sorted",
    "C115_no_tolerance",
    "C115_edge_refuted",
    "C115_gap_refuted",
    "C115_rows_refuted"
   ],
   "note": "full statement for tolerances of up to one bin and directions away from the edges u = 0 and v = 0, 1 of the sky square; refuted at these edges (bins of the opposite horizon), for larger tolerances (gaps) and for several directions (rejected, or nine of them with one offset each)"
  },
  {
   "property": "C116",
   "status": "partial",
   "theorems": [
    "C116_mean",
    "C116_range",
    "C116_rows",
    "C116_fallback",
    "C116_gap_refuted",
    "C116_quantiles",
    "C116_median",
    "C116_median_rows_refuted",
    "C116_rejects",
    "C116_self"
   ],
   "note": "full statement for the mean where every coordinate has data with weight, and for one row; refuted for two or more rows: in a gap without weights the interpolation raises, and the median and quantiles always raise"
  },
  {
   "property": "C117",
   "status": "partial",
   "theorems": [
    "C117_values",
    "C117_range",
    "C117_units",
    "C117_zero",
    "C117_zero_columns_refuted",
    "C117_density",
    "C117_width_refuted",
    "C117_density_units_refuted"
   ],
   "note": "full statement with columns given and a positive width; refuted: without a width (sf=0) two or more columns raise, and the density is estimated with sigma times the standard deviation as width, so that it depends on the unit of x"
  },
  {
   "property": "C118",
   "status": "partial",
   "theorems": [
    "C118_arguments_partial",
    "C118_arguments_refuted",
    "C118_blank_refuted",
    "C118_apostrophe_refuted",
    "C118_read_partial",
    "C118_commands_partial"
   ],
   "note": "full statement for names without blanks, line ends, quotes and backslashes; refuted for every other name (the command line is built as a text and split again)"
  },
  {
   "property": "C119",
   "status": "partial",
   "theorems": [
    "C119_lines_partial",
    "C119_kept",
    "C119_radiance_refuted",
    "C119_missing",
    "C119_cannot_open_refuted",
    "C119_rejected"
   ],
   "note": "exact: the lines that mention RADIANCE are dropped, no others; refuted: a line such as SOFTWARE= RADIANCE 5.4 is lost, and a header that mentions 'cannot open' raises FileNotFoundError"
  },
  {
   "property": "C120",
   "status": "partial",
   "theorems": [
    "C120_pixels",
    "C120_header_partial",
    "C120_empty_refuted",
    "C120_apostrophe_refuted",
    "C120_quotes_refuted"
   ],
   "note": "pixels for every header; the header for one level of lines without apostrophes and repetitions; refuted: apostrophes raise or are lost, and an empty cleaned header adds an empty line, which ends the header"
  },
  {
   "property": "C121",
   "status": "partial",
   "theorems": [
    "C121_roundtrip_partial",
    "C121_roundtrip_refuted",
    "C121_cell",
    "C121_order"
   ],
   "note": "binary64 arithmetic, operation by operation; sides up to 2^25 and offsets in [2^-24, 1-2^-24], which includes the default 1/2; refuted for offset 0 (side 49)"
  },
  {
   "property": "C122",
   "status": "partial",
   "theorems": [
    "C122_unit_partial",
    "C122_zero",
    "C122_large_refuted",
    "C122_tiny_refuted"
   ],
   "note": "binary64 arithmetic, operation by operation; lengths from 2^-500 to 2^500; refuted outside: squares overflow (the result is 0) or underflow (inf and nan, or the vector itself)"
  },
  {
   "property": "C123",
   "status": "partial",
   "theorems": [
    "C123_norm",
    "C123_tau",
    "C123_ring",
    "C123_ctheta",
    "C123_accurate",
    "C123_accurate_theta",
    "C123_accurate_tau",
    "C123_chord_refuted"
   ],
   "note": "binary64 arithmetic, operation by operation; lengths from 2^-500 to 2^500; refuted for chord2theta: it does not clip, and the distance of the opposite unit vectors norm(1, 12, 34) and norm(-1, -12, -34) is above 2"
  },
  {
   "property": "C124",
   "status": "partial",
   "theorems": [
    "C124_set_partial",
    "C124_directories",
    "C124_unset",
    "C124_again",
    "C124_default_refuted",
    "C124_colon_refuted"
   ],
   "note": "partial: refuted when RAYPATH is not set (the default directories are lost) and when the path of the package contains a colon; os.environ as a value, the search of the Radiance programs as the first directory that has the file"
  },
  {
   "property": "C125",
   "status": "partial",
   "theorems": [
    "C125_labels",
    "C125_other_labels",
    "C125_rejected",
    "C125_angular",
    "C125_full",
    "C125_square",
    "C125_equisolid_partial",
    "C125_base",
    "C125_full_equisolid_refuted",
    "C125_equisolid_law_refuted",
    "C125_narrow_equisolid_refuted",
    "C125_solid_class_refuted"
   ],
   "note": "equisolid images: proved for 180 degrees up to 10000 pixels; refuted for 360 degrees (vectors and mask for one half only), for narrower views (the mask is smaller than the circle), for the angles of the pixels (they follow the inverse of the equisolid law, see C77), and for the class SolidViewMapper, whose default header says equiangular"
  },
  {
   "property": "C126",
   "status": "partial",
   "theorems": [
    "C126_view_partial",
    "C126_full_partial",
    "C126_base_partial",
    "C126_planes_partial",
    "C126_no_growth",
    "C126_edge_refuted",
    "C126_overlap_refuted",
    "C126_content_refuted",
    "C126_skipped_plane_refuted"
   ],
   "note": "proved for blank images: value c where squares lie within the image and do not overlap, non-zero in all squares, zero elsewhere; refuted at the edge (4c in the corner), for overlapping squares (2c) and for what the image had before (multiplied by (2g+1)^2, in planes with the value None too)"
  },
  {
   "property": "C127",
   "status": "partial",
   "theorems": [
    "C127_base",
    "C127_view",
    "C127_full_partial",
    "C127_behind_refuted"
   ],
   "note": "the image and header passed to array2hdr; refuted for 360 degree views: the image is square and shows nothing behind the view plane"
  },
  {
   "property": "C128",
   "status": "partial",
   "theorems": [
    "C128_solid2ang_partial",
    "C128_source",
    "C128_direction_refuted",
    "C128_equisolid_angle_refuted",
    "C128_reverse_refuted",
    "C128_rotate",
    "C128_square_refuted",
    "C128_uv2ang"
   ],
   "note": "proved for the angle of the view and for the views kept; refuted: the direction and point of the source are replaced by 0 1 0 and the origin, the angle of an equisolid source is not read, reverse writes the header of an angular image, and hdr_ang2uv keeps the angular view"
  },
  {
   "property": "C129",
   "status": "partial",
   "theorems": [
    "C129_direction",
    "C129_useview_refuted"
   ],
   "note": "refuted: the result is the same for all view directions; for 180 and 360 degrees useview changes nothing"
  },
  {
   "property": "C130",
   "status": "proved",
   "theorems": [
    "C130_illum",
    "C130_avglum",
    "C130_orders",
    "C130_brighter"
   ],
   "note": "binary64 arithmetic, operation by operation, for every tree of additions with at most 2^40 of them; the products of einsum from left to right; monotone for rays whose computed cosine is not negative"
  },
  {
   "property": "C131",
   "status": "proved",
   "theorems": [
    "C131_outcome",
    "C131_none_lost",
    "C131_calls",
    "C131_goes_on",
    "C131_ends"
   ],
   "note": "the death as one step that gives all futures that are not done the exception, as concurrent.futures does when it notices it"
  },
  {
   "property": "C132",
   "status": "partial",
   "theorems": [
    "C132_returned",
    "C132_raised_refuted",
    "C132_all_made"
   ],
   "note": "proved for a normal return; refuted when a call raises: the executor is not shut down, so the later calls are started after pool_call has raised, and in the end all are made"
  },
  {
   "property": "C133",
   "status": "partial",
   "theorems": [
    "C133_value",
    "C133_tpnorm",
    "C133_kept_partial",
    "C133_kept_refuted",
    "C133_again",
    "C133_whole_partial",
    "C133_whole_refuted"
   ],
   "note": "the argument as a second result; arrays of whole numbers truncate what is written into them (numpy casts on assignment)"
  },
  {
   "property": "C134",
   "status": "partial",
   "theorems": [
    "C134_lines_partial",
    "C134_words_partial",
    "C134_again_partial",
    "C134_ends_refuted",
    "C134_width_refuted",
    "C134_view_refuted",
    "C134_hyphen_refuted",
    "C134_fills",
    "C134_model",
    "C134_fuel"
   ],
   "note": "textwrap (wordsep_re, _wrap_chunks, _handle_long_word) is modelled with a number of steps; None means it has not come to an end. lines needs room behind the key; again needs words without inner hyphens that fit on a line, one blank between them, and no line that is the beginning of another; words needs only that the text is words with single blanks between them, and says that each line holds whole words unless a word is too long for a line"
  },
  {
   "property": "C135",
   "status": "proved",
   "theorems": [
    "C135_spaces",
    "C135_letters"
   ],
   "note": ""
  },
  {
   "property": "C136",
   "status": "partial",
   "theorems": [
    "C136_filters",
    "C136_up",
    "C136_down",
    "C136_smooth_partial",
    "C136_even_refuted",
    "C136_mirror_up",
    "C136_mirror_down",
    "C136_mirror_gauss",
    "C136_spot",
    "C136_kernel",
    "C136_light",
    "C136_eye"
   ],
   "note": "full statement in exact arithmetic for two dimensional images, with scipy's filters modelled; the mean is refuted for a uniform window of an even number of values; the first eye movement is given pixel by pixel for a bright pixel"
  },
  {
   "property": "C137",
   "status": "partial",
   "theorems": [
    "C137_partial",
    "C137_even_refuted",
    "C137_peak",
    "C137_peak_refuted"
   ],
   "note": "the score with scipy's filters as modelled in M_Ndimage; the whole statement for windows of an odd number of pixels and without the point spread function. For a window of two pixels it is refuted at the point spread function itself, for every even window the place of the peak is"
  },
  {
   "property": "C138",
   "status": "proved",
   "theorems": [
    "C138_close",
    "C138_largest"
   ],
   "note": "full statement in exact arithmetic"
  },
  {
   "property": "C139",
   "status": "proved",
   "theorems": [
    "C139_up",
    "C139_down",
    "C139_up_mean",
    "C139_down_mean",
    "C139_smooth",
    "C139_none",
    "C139_axes",
    "C139_one_number",
    "C139_image"
   ],
   "note": "full statement in exact arithmetic with scipy's filters modelled, for whole factors that make every axis longer or every axis shorter; mixed factors are refuted in C64"
  },
  {
   "property": "C140",
   "status": "partial",
   "theorems": [
    "C140_read",
    "C140_read_color",
    "C140_any_output",
    "C140_cut",
    "C140_cut_color",
    "C140_beginning",
    "C140_messages_refuted",
    "C140_header"
   ],
   "note": "full statement for two processes that run one byte at a time in any order; false when pvalue prints more messages than the pipe for them holds, which is refuted: the call never returns"
  },
  {
   "property": "C141",
   "status": "partial",
   "theorems": [
    "C141_written",
    "C141_beginning",
    "C141_channels_refuted",
    "C141_channels_unreported_refuted",
    "C141_many_channels_refuted",
    "C141_killed_unreported_refuted",
    "C141_killed_hangs_refuted"
   ],
   "note": "full statement for arrays (x, y) and (3, x, y) for three processes that run one byte at a time in any order, pvalue being any program that reads the bytes it asks for; refuted for other numbers of channels (the call hangs, returns with an incomplete file or raises) and for programs that are killed (unreported, or the call hangs)"
  },
  {
   "property": "C142",
   "status": "proved",
   "theorems": [
    "C142_channel",
    "C142_radiance",
    "C142_luminance",
    "C142_pixel",
    "C142_black",
    "C142_brighter"
   ],
   "note": "full statement for binary64 arithmetic, with products that are rounded or fused with the addition"
  },
  {
   "property": "C143",
   "status": "partial",
   "theorems": [
    "C143_falls_partial",
    "C143_nearly",
    "C143_ends",
    "C143_refuted"
   ],
   "note": "falls from 0.0103 on; refuted for eccentricities from 0.009 to 0.0103, where the rise is bounded by 0.05 percent"
  },
  {
   "property": "C144",
   "status": "proved",
   "theorems": [
    "C144_angle",
    "C144_even",
    "C144_age",
    "C144_pigment"
   ],
   "note": ""
  },
  {
   "property": "C145",
   "status": "partial",
   "theorems": [
    "C145_dgp",
    "C145_ugr",
    "C145_same",
    "C145_refuted"
   ],
   "note": "proved for scenes that get brighter as a whole; refuted for some brighter rays (a brighter background lowers dgp)"
  },
  {
   "property": "C146",
   "status": "proved",
   "theorems": [
    "C146_units",
    "C146_color"
   ],
   "note": ""
  },
  {
   "property": "C147",
   "status": "partial",
   "theorems": [
    "C147_dim_partial",
    "C147_color_dim_partial",
    "C147_order_partial",
    "C147_color_partial",
    "C147_refuted"
   ],
   "note": ""
  },
  {
   "property": "C148",
   "status": "partial",
   "theorems": [
    "C148_dim_partial",
    "C148_positions",
    "C148_metrics_partial",
    "C148_refuted"
   ],
   "note": ""
  },
  {
   "property": "C149",
   "status": "proved",
   "theorems": [
    "C149_dim",
    "C149_metrics",
    "C149_counts"
   ],
   "note": ""
  },
  {
   "property": "C150",
   "status": "proved",
   "theorems": [
    "C150_averages",
    "C150_glare"
   ],
   "note": ""
  },
  {
   "property": "C151",
   "status": "partial",
   "theorems": [
    "C151_sources",
    "C151_dgp",
    "C151_ugr",
    "C151_refuted"
   ],
   "note": ""
  },
  {
   "property": "C152",
   "status": "partial",
   "theorems": [
    "C152_seen_partial",
    "C152_color_seen_partial",
    "C152_rays_partial",
    "C152_color_partial",
    "C152_refuted"
   ],
   "note": ""
  },
  {
   "property": "C153",
   "status": "partial",
   "theorems": [
    "C153_metrics",
    "C153_color",
    "C153_views",
    "C153_translate",
    "C153_refuted"
   ],
   "note": ""
  },
  {
   "property": "C154",
   "status": "partial",
   "theorems": [
    "C154_metrics_partial",
    "C154_peak_partial",
    "C154_refuted"
   ],
   "note": ""
  },
  {
   "property": "C155",
   "status": "partial",
   "theorems": [
    "C155_again_partial",
    "C155_area",
    "C155_refuted"
   ],
   "note": ""
  },
  {
   "property": "C156",
   "status": "proved",
   "theorems": [
    "C156_peak",
    "C156_secondary"
   ],
   "note": ""
  },
  {
   "property": "C157",
   "status": "partial",
   "theorems": [
    "C157_peak_partial",
    "C157_secondary_partial",
    "C157_refuted"
   ],
   "note": ""
  },
  {
   "property": "C158",
   "status": "proved",
   "theorems": [
    "C158_peak",
    "C158_secondary"
   ],
   "note": ""
  },
  {
   "property": "C159",
   "status": "proved",
   "theorems": [
    "C159_radians",
    "C159_degrees",
    "C159_path",
    "C159_circles",
    "C159_chord",
    "C159_moved"
   ],
   "note": ""
  },
  {
   "property": "C160",
   "status": "partial",
   "theorems": [
    "C160_again",
    "C160_moved",
    "C160_tolerance_refuted"
   ],
   "note": ""
  },
  {
   "property": "C161",
   "status": "partial",
   "theorems": [
    "C161_data",
    "C161_weights",
    "C161_sign_refuted"
   ],
   "note": ""
  },
  {
   "property": "C162",
   "status": "proved",
   "theorems": [
    "C162_linear"
   ],
   "note": ""
  }
 ]
}