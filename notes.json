{
 "C10": "The full property is false (C10_..._refuted: releasing a modifier that both layers contain clears isKeyboardStale before the report is sent). Partial theorems state what does hold.",
 "C11": "The full property is false (two switches with the same code; C11_..._refuted). The partial theorem covers codes produced by one switch only.",
 "C21": "Refuted as stated: antiparallel directions return mirroredX, which keeps (0,0,1) and is not a rotation (C21_antiparallel_refuted). Proved for all other pairs (C21_aligns_partial).",
 "C28": "The last clause is false (C28_collapse_keeps_short_segment_refuted: removing short segments can leave a new short one). Construction and selection are proved; C28_collapse_gap_partial bounds how much shorter a kept segment may get.",
 "C29": "Crossed coincidences (a = c or b = d) are outside the hypothesis; C29_crossed_pair_leaks shows the mesh leaks there.",
 "C35": "False as stated: with the absolute tolerance 1e-6, polygons smaller than the tolerance get no ears (C35_tiny_*_refuted). Proved for convex polygons whose vertices keep the tolerance from lines through other vertices (C35_convex_complete_partial), and for all simple polygons that keep the tolerance in C80 (C80_ears_complete); missing: polygons with collinear or nearly collinear vertices.",
 "C36": "For any arithmetic, under the hypothesis that an edge whose two triangles share the third corner is not flipped (true over the reals and for finite floats).",
 "C56": "The choice of the bridge is proved (C56_bridge_choice). The last clause is false: C56_bridge_crosses_refuted gives a simple polygon with 12 vertices and a triangular hole where the bridge crosses a side, because the program takes the nearest reflex vertex instead of the one with the smallest angle to the ray.",
 "C44": "False for negative angles: C44_negative_refuted shows the label has two minus signs and is not left out even when the angle is written as 0. C44_label_partial covers angles with positive sign.",
 "C45": "Clearing is not idempotent in every text (C45_clear_again_refuted); it is where attributes are followed by white space, a slash or a bracket (C45_clear_complete_partial), as in XML. Filling is always idempotent.",
 "C58": "Full hole proved. The half hole keeps its promise only for taper angles of at least 45 degrees (C58_half_hole_partial); for every smaller angle its straight edge cuts into the circle (C58_half_hole_refuted), because the code uses a fixed tau/8 arc.",
 "C48": "For any arithmetic under weight-level exactness of faces and clean strips (C48_support_closed, C48_knob_closed); over the reals face exactness follows from a complete triangulation (C48_*_real). The examples check the hypotheses for concrete settings in fixed point arithmetic."
}