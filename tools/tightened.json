[
[
[
"ANGSTROM",
"wrong Bohr radius"
],
[
"C41_traditional_constants",
"C41_cell_parameters_card"
]
],
[
[
"dict_set",
"first insertion wins"
],
[
"C70_last_occurrence"
]
],
[
[
"wfn_v",
"wfn and wfnq swapped"
],
[
"C52_momentum_conserved"
]
],
[
[
"lower1",
"Z not lowered"
],
[
"C51_letter_case"
]
],
[
[
"system_fields",
"nspin read as a float"
],
[
"C51_field_types"
]
],
[
[
"system_fields",
"ecutwfc no longer required"
],
[
"C51_field_types"
]
],
[
[
"positive",
"zero count accepted"
],
[
"C51_card_count"
]
],
[
[
"from_file",
"missing sections accepted"
],
[
"C51_required_sections"
]
],
[
[
"first_sect",
"missing section read as empty"
],
[
"C73_sections_present"
]
],
[
[
"fill_row",
"band window ignored"
],
[
"C77_element_labels"
]
],
[
[
"omegas",
"density at the opposite vector"
],
[
"C78_mode_parameters"
]
],
[
[
"omegas",
"product (G+q).(G'+q) replaced by the square"
],
[
"C78_mode_parameters"
]
],
[
[
"wxt",
"bra energy not converted"
],
[
"C78_self_energy_formula"
]
],
[
[
"wxt",
"ket energy of the wrong band"
],
[
"C78_self_energy_formula"
]
],
[
[
"gpp_q",
"not transposed"
],
[
"C78_self_energy_formula"
]
],
[
[
"sigma_sx_gpp",
"sign of screened exchange"
],
[
"C78_self_energy_formula"
]
],
[
[
"sigma_ch_gpp",
"occupied bands only"
],
[
"C78_self_energy_formula"
]
],
[
[
"dsig",
"derivative forgets CH"
],
[
"C79_linearised"
]
],
[
[
"parse_axis",
"y kicks along z"
],
[
"C80_response"
]
],
[
[
"center_cryst",
"not divided by number of electrons"
],
[
"C80_charge_centre"
]
],
[
[
"center_cryst",
"atoms not weighted by valence"
],
[
"C80_charge_centre"
]
],
[
[
"over",
"multiplied by kick"
],
[
"C80_response"
]
],
[
[
"reshape",
"1 -> 2"
],
[
"C26_reshape_exactly"
]
],
[
[
"mk_species",
"exception kind of a wrong mass"
],
[
"C22_species_refused"
]
],
[
[
"field_name",
"one legal character is enough"
],
[
"C75_names_legal"
]
],
[
[
"g_denom",
"* -> +"
],
[
"C59_preconditioner_value"
]
],
[
[
"set",
"Err AttributeError -> Err ValueError"
],
[
"C34_refusal_kind"
]
],
[
[
"from_alat",
"axes not scaled"
],
[
"C18_constructors"
]
],
[
[
"axes_unit",
"multiplied instead of divided"
],
[
"C18_constructors"
]
],
[
[
"compute_error",
"inner product with the input"
],
[
"C32_error_estimate"
]
],
[
[
"cohsex_row",
"fst -> snd"
],
[
"C95_report"
]
],
[
[
"recip",
"1/0 finite"
],
[
"C97_shifted_value"
]
],
[
[
"convert",
"conversion to own representation re-made"
],
[
"C109_same_representation"
]
],
[
[
"comp",
"x component is y"
],
[
"C80_dipole_is_first_moment",
"C80_kick"
]
],
[
[
"comp",
"`vx` replaced by `vy` at `:= match a with AX => vx r | AY => vy r | AZ => vz`"
],
[
"C80_dipole_is_first_moment",
"C80_charge_centre",
"C80_kick"
]
],
[
[
"step",
"log opened in mode w: truncates what other processes wrote"
],
[
"C113_lines_kept"
]
],
[
[
"open_append",
"mode w: dead because the file has been renamed"
],
[
"C113_lines_kept"
]
],
[
[
"file_name",
"files numbered from zero"
],
[
"C116_each_coefficient"
]
],
[
[
"take_along_1",
"IndexError -> ValueError"
],
[
"C48_reorder_refuses"
]
]
]