"""Mutants that survived at first -> the theorems added or strengthened because of them."""
TIGHTENED = {
 'BinModel-16': ['C05_bin_edges_quantile'],
 'ArrayModel-05': ['C35_array_frame', 'C35_phik_from_array'],
 'ArrayModel-06': ['C35_array_frame', 'C35_phik_from_array'],
 'ArrayModel-07': ['C35_array_frame', 'C35_phik_from_array'],
 'SigModel-01': ['C71_objective'],
 'SigModel-05': ['C71_objective'],
 'SigModel-17': ['C43_hybrid_fallback'],
 'SigModel-25': ['C73_from_array'],
 'OutModel-29': ['C80_numbers_are_binned', 'C80_from_array'],
 'ReportModel-09': ['C67_text_colour'],
}
