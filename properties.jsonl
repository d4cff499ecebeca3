{"id": "C01", "title": "Debounced switch events alternate", "statement": "For every switch, the reports produced from its raw samples strictly alternate press, release, press, ..., starting with a press, and each report carries the level of the sample that triggered it.", "quantifier": "every finite sequence of raw samples of a switch, every debounce tick count 1..127", "why_tests_cant": "Contact bounce and typing histories are unbounded; a test replays a few of them.", "anchors": ["firmware/chrumm/matrix.c:debounce"]}
{"id": "C02", "title": "Debounce needs evidence", "statement": "A switch report is produced by a sample exactly when the sample has the level opposite to the reported one and some window of the samples since the previous report (or power-up), ending with this sample, contains at least MATRIX_DEBOUNCE_TICKS more samples of the new than of the old level. Hence at least MATRIX_DEBOUNCE_TICKS samples of the new level arrived since the previous report, and a burst of fewer opposite samples never reports.", "quantifier": "every sample history, every tick count 1..127", "why_tests_cant": "Contact bounce and typing histories are unbounded; a test replays a few of them.", "anchors": ["firmware/chrumm/matrix.c:debounce"]}
{"id": "C03", "title": "Debounce latency", "statement": "MATRIX_DEBOUNCE_TICKS consecutive samples of the level opposite to the reported one always produce the report, at the latest with the last of them, whatever happened before.", "quantifier": "every reachable debounce state", "why_tests_cant": "Contact bounce and typing histories are unbounded; a test replays a few of them.", "anchors": ["firmware/chrumm/matrix.c:debounce"]}
{"id": "C04", "title": "Debounce byte never wraps", "statement": "With the compile-time bound MATRIX_DEBOUNCE_TICKS <= UINT8_MAX/2 the per-switch state byte never leaves 0..255 before truncation, so 8-bit arithmetic equals integer arithmetic; with a larger tick count the switch would stop reporting (the static_assert is needed).", "quantifier": "every sample history, every tick count", "why_tests_cant": "The overflow needs a specific long history to show up.", "anchors": ["firmware/chrumm/matrix.c:static_assert", "firmware/chrumm/matrix.c:debounce"]}
{"id": "C05", "title": "Switches are independent", "statement": "The press/release stream of a switch depends only on that switch's own samples, and one scan processes every switch exactly once in row-major order.", "quantifier": "every scan history of the whole matrix", "why_tests_cant": "The state space is 65 independent bytes times all histories.", "anchors": ["firmware/chrumm/matrix.c:matrix_tick", "firmware/chrumm/matrix.c:debounce"]}
{"id": "C06", "title": "Fn key semantics", "statement": "While Fn is held the Fn layer is active; releasing it returns to the base layer unless exactly two Fn presses happened with no code-producing key press in between, in which case the layer stays locked until the Fn key has been tapped again; with more than two consecutive taps everything returns to the base layer.", "quantifier": "every history of debounced key events", "why_tests_cant": "Layer and tap counters depend on the whole key history.", "anchors": ["firmware/chrumm/matrix.c:report"]}
{"id": "C07", "title": "Bootloader is entered only deliberately", "statement": "reset_usb_boot is called exactly when a kBOOT press happens on the Fn layer that is at least the third one with no code-producing key press since the first; no other history enters the bootloader.", "quantifier": "every history of debounced key events", "why_tests_cant": "Absence over all histories.", "anchors": ["firmware/chrumm/matrix.c:report"]}
{"id": "C08", "title": "No stuck keys", "statement": "Whenever every switch has reported release and the encoder pulse has ended, the report to be sent contains no keycode, no modifier and no consumer code, no matter how layers changed between presses and releases and whether keys were dropped or the bus was suspended in between.", "quantifier": "every interleaving of key events, layer changes, suspends and encoder events, every layer table", "why_tests_cant": "Interleavings of layer changes with presses are unbounded.", "anchors": ["firmware/chrumm/matrix.c:report", "firmware/chrumm/hid.c:hid_add", "firmware/chrumm/hid.c:hid_remove", "firmware/chrumm/encoder.c:report"]}
{"id": "C09", "title": "HID keyboard report is well formed", "statement": "In every reachable state the six keycode slots contain no duplicate non-zero code and never a modifier code; modifiers fit one byte; the report behaves like a set of at most six codes: adding inserts if there is room (otherwise the report is unchanged), removing deletes.", "quantifier": "every sequence of hid_add/hid_remove calls", "why_tests_cant": "The invariant ranges over all call histories.", "anchors": ["firmware/chrumm/hid.c:addKeycode", "firmware/chrumm/hid.c:removeKeycode"]}
{"id": "C10", "title": "Changes reach the host", "statement": "If the bus becomes ready, the last report delivered to the host equals the current keyboard (and consumer) state.", "quantifier": "every interleaving of hid_add, hid_remove and hid_tick with every endpoint readiness", "why_tests_cant": "A lost update only shows for particular call orders.", "anchors": ["firmware/chrumm/hid.c:hid_tick", "firmware/chrumm/hid.c:isKeyboardStale"]}
{"id": "C11", "title": "A held key stays pressed", "statement": "As long as a physical key whose code was accepted is held (and no layer-dependent code was dropped) its code stays in the report, whatever other keys do.", "quantifier": "every history of key events", "why_tests_cant": "Needs particular pairs of keys.", "anchors": ["firmware/chrumm/matrix.c:report", "firmware/chrumm/hid.c:hid_remove"]}
{"id": "C12", "title": "Suspended bus", "statement": "While the bus is suspended a key press only requests a remote wakeup and leaves the report unchanged; releases are still processed.", "quantifier": "every state and usage code", "why_tests_cant": "All states.", "anchors": ["firmware/chrumm/hid.c:hid_add"]}
{"id": "C13", "title": "Encoder counts detents exactly", "statement": "For every bouncy walk of the quadrature signal (each sample moves at most one Gray-code step from the previous one), #CW events minus #CCW events equals the net number of completed detents; bouncing around any position never produces an event by itself.", "quantifier": "every walk of +-1/0 quadrature steps of any length", "why_tests_cant": "Bounce sequences are unbounded.", "anchors": ["firmware/chrumm/encoder.c:encoder_tick"]}
{"id": "C14", "title": "Encoder state table is safe", "statement": "The encoder state always stays in the seven defined states, so the table index is always below 28, for every (even non-Gray) input sequence; every event needs at least three samples away from the rest position since the previous event.", "quantifier": "every sample sequence", "why_tests_cant": "All input sequences.", "anchors": ["firmware/chrumm/encoder.c:encoder_tick"]}
{"id": "C15", "title": "Encoder key presses are pulses", "statement": "Reports of the encoder alternate add / remove of the same usage; each added usage is removed exactly ENCODER_KEYPRESS_TICKS+1 ticks later; an event arriving while a pulse is in progress is dropped.", "quantifier": "every sequence of encoder events over time", "why_tests_cant": "Timing histories.", "anchors": ["firmware/chrumm/encoder.c:report"]}
{"id": "C16", "title": "LED shows the requested pattern", "statement": "n ticks after led_blink(p) changed the pattern the LED shows bit ((n-1)/LED_BLINK_TICKS mod 8) of p (n>=1, until the next change); re-requesting the same pattern has no effect; pattern 0 turns the LED off at the next tick; host lock-LED reports map to patterns by num/caps lock bits only.", "quantifier": "every tick count, every pattern, every prior history", "why_tests_cant": "Periodic behaviour for all time.", "anchors": ["firmware/chrumm/led.c:led_tick", "firmware/chrumm/led.c:led_blink", "firmware/chrumm/hid.c:tud_hid_set_report_cb"]}
{"id": "C17", "title": "USB string descriptors", "statement": "Every string descriptor served has first byte equal to its length in bytes 2+2n and type byte 3, the serial is the board id in UTF-16, and an unknown index returns NULL.", "quantifier": "every descriptor index and board id", "why_tests_cant": "All board ids.", "anchors": ["firmware/chrumm/usb.c:tud_descriptor_string_cb"]}
{"id": "C18", "title": "Whole firmware tick", "statement": "Running the main loop for any number of ticks with any pin samples and any bus behaviour keeps all of the above invariants together: a key held down for the debounce time is in the next keyboard report sent, provided there is room.", "quantifier": "every input trace of the main loop", "why_tests_cant": "Composition over unbounded time.", "anchors": ["firmware/chrumm/main.c:main"]}
{"id": "C19", "title": "Transformation composition", "statement": "Transforming by A*B equals transforming by A then by B, for all matrices built from the public builders; every builder produces an affine matrix.", "quantifier": "all real vectors, all composition trees of builders", "why_tests_cant": "Holds for all real coordinates; tests sample a few.", "anchors": ["body/chrumm/geo/matrix.py:Matrix.__mul__", "body/chrumm/geo/vector.py:Vector.transformed"]}
{"id": "C20", "title": "Rotations and mirrors are rigid", "statement": "Every matrix built with the public builders preserves distances; axis rotations about any center keep orientation, fix their axis and turn in the documented direction, and compose to the identity with the opposite angle; mirrors are involutive and reverse orientation; transformed planes keep signed distances and transformed lines keep incidence.", "quantifier": "all angles, centers and vectors", "why_tests_cant": "Holds for all real coordinates; tests sample a few.", "anchors": ["body/chrumm/geo/matrix.py:Matrix.rotatedX", "body/chrumm/geo/matrix.py:Matrix.mirroredX"]}
{"id": "C21", "title": "Alignment matrix aligns", "statement": "Matrix.fromAlignment(source, target) maps the direction of source to the direction of target and is a rotation.", "quantifier": "all pairs of non-zero vectors", "why_tests_cant": "Fails only on special directions.", "anchors": ["body/chrumm/geo/matrix.py:Matrix.fromAlignment"]}
{"id": "C22", "title": "Vector ordering", "statement": "Vector < is a strict total order (lexicographic), so sorting is deterministic.", "quantifier": "all vectors", "why_tests_cant": "Holds for all real coordinates; tests sample a few.", "anchors": ["body/chrumm/geo/vector.py:Vector.__lt__"]}
{"id": "C23", "title": "Plane and line intersections are sound and complete", "statement": "A plane/line/three-plane intersection or projection returns a point lying on all participants, moves only in the requested direction, and raises exactly when the configuration is (numerically) parallel.", "quantifier": "all real planes, lines and points", "why_tests_cant": "Holds for all real coordinates; tests sample a few.", "anchors": ["body/chrumm/geo/plane.py", "body/chrumm/geo/line.py"]}
{"id": "C24", "title": "2D segment intersection", "statement": "Segment.intersect2D returns a point exactly when the segments (or lines, as requested) intersect, and the point lies on both.", "quantifier": "all pairs of 2D segments", "why_tests_cant": "Holds for all real coordinates; tests sample a few.", "anchors": ["body/chrumm/geo/segment.py:Segment.intersect2D"]}
{"id": "C25", "title": "Point-segment distance", "statement": "Segment.distance2D and Edge.distance2D are the true minimum Euclidean distance to the segment or edge.", "quantifier": "all points and polylines", "why_tests_cant": "Holds for all real coordinates; tests sample a few.", "anchors": ["body/chrumm/geo/segment.py:Segment.distance2D", "body/chrumm/geo/edge.py:Edge.distance2D"]}
{"id": "C26", "title": "Circle intersections", "statement": "Circle-line and circle-circle intersections return exactly the common points (two, or one touching point within tolerance) and an empty list when the curves do not meet; they never raise for lines that are not vertical.", "quantifier": "all circles, lines and points", "why_tests_cant": "Holds for all real coordinates; tests sample a few.", "anchors": ["body/chrumm/geo/circle.py"]}
{"id": "C27", "title": "Triangle mirroring keeps the outside outside", "statement": "normal() is the right-handed unit normal; mirroring a triangle and reversing it yields the mirrored outward normal; reversal flips the normal; the circumradius is the distance to a coplanar point equidistant from the corners (0 for degenerate triangles); area satisfies Heron's formula; angleBetween is the angle in [0, pi] with the right cosine.", "quantifier": "all triangles", "why_tests_cant": "Holds for all real coordinates; tests sample a few.", "anchors": ["body/chrumm/geo/triangle.py"]}
{"id": "C28", "title": "Edge construction and collapse", "statement": "Edges flatten to the points given, in order; collapsing keeps, in order, exactly the points whose following segment is at least the threshold long; no remaining segment is shorter than the threshold.", "quantifier": "all point sequences", "why_tests_cant": "Needs specific chains of short segments.", "anchors": ["body/chrumm/geo/edge.py:Edge.collapsed"]}
{"id": "C29", "title": "Pairwise meshing is watertight", "statement": "The triangles made between two equally long edges use only vertices of the two edges and, as a directed edge chain, have boundary = first edge + connector - second edge - connector (no holes, no double faces), also for closed edges and when corresponding or consecutive points coincide, provided candidate triangles are degenerate only where such points coincide.", "quantifier": "all pairs of equally long edges, any arithmetic", "why_tests_cant": "Every degenerate pattern of coinciding points.", "anchors": ["body/chrumm/geo/edge.py:Edge.meshPairwise"]}
{"id": "C30", "title": "Parallel meshing is watertight", "statement": "meshParallel always terminates with exactly one triangle per segment of the two edges and the same boundary law.", "quantifier": "all pairs of non-empty edges, any arithmetic (including NaN)", "why_tests_cant": "The zipper takes data-dependent decisions.", "anchors": ["body/chrumm/geo/edge.py:Edge.meshParallel"]}
{"id": "C31", "title": "Point in polygon", "statement": "contains2D is the even-odd rule: false for points separated from the polygon by a line, true inside a convex polygon; invariant under the starting vertex and orientation.", "quantifier": "all polygons and points", "why_tests_cant": "Holds for all real coordinates; tests sample a few.", "anchors": ["body/chrumm/geo/edge.py:Edge.contains2D"]}
{"id": "C32", "title": "Convex hull", "statement": "fromConvexHull2D returns a strictly convex counter-clockwise polygon, whose vertices are input points and which contains every input point.", "quantifier": "all finite point sets", "why_tests_cant": "Holds for all real coordinates; tests sample a few.", "anchors": ["body/chrumm/geo/edge.py:Edge.fromConvexHull2D"]}
{"id": "C33", "title": "Hole merging keeps the boundary", "statement": "Merging the holes of a face into the outer polygon keeps every vertex, adds exactly two vertices per hole, and leaves the boundary chain (outer plus holes) unchanged because bridges cancel.", "quantifier": "all faces with any number of holes, any arithmetic", "why_tests_cant": "All hole layouts.", "anchors": ["body/chrumm/geo/face.py:Face._mergeHoles"]}
{"id": "C34", "title": "Ear clipping is boundary exact", "statement": "Ear clipping always terminates; the ears plus the remaining polygon have exactly the boundary of the input; with n-2 ears the triangulation is boundary exact, so neighbouring faces match vertex for vertex; ears use only polygon vertices; cached ear tests equal fresh ones.", "quantifier": "all polygons, any arithmetic", "why_tests_cant": "All polygons.", "anchors": ["body/chrumm/geo/face.py:Face._cutEars"]}
{"id": "C35", "title": "Ear clipping completes", "statement": "For every polygon ear clipping finds n-2 ears.", "quantifier": "all simple polygons", "why_tests_cant": "All polygons.", "anchors": ["body/chrumm/geo/face.py:Face._cutEars"]}
{"id": "C36", "title": "Delaunay flipping preserves the surface", "statement": "Edge flipping preserves the number of triangles and their boundary chain, for every order in which the work set yields edges.", "quantifier": "all triangle lists, all schedules of set.pop", "why_tests_cant": "Set order is not deterministic across runs.", "anchors": ["body/chrumm/geo/face.py:Face._flipTriangles"]}
{"id": "C37", "title": "Delaunay flipping terminates", "statement": "Flipping terminates for every triangulation and every work order, and at the end every interior edge is locally Delaunay up to the tolerance.", "quantifier": "all triangulations, all schedules", "why_tests_cant": "Termination is not testable.", "anchors": ["body/chrumm/geo/face.py:Face._flipTriangles"]}
{"id": "C38", "title": "STL file format", "statement": "The STL bytes are exactly the binary STL format: 80 byte header, little endian count, 50 bytes per triangle with unit normal and vertices in order; decoding returns the triangles; length is 84+50n.", "quantifier": "all triangle lists", "why_tests_cant": "All sizes and values.", "anchors": ["body/chrumm/stl.py:toBytes"]}
{"id": "C39", "title": "Config merging", "statement": "After reading configuration files the value at each path is that of the last file defining it, nothing of an earlier configuration survives, and exactly the keys ending in angle are converted to radians.", "quantifier": "all sequences of JSON objects", "why_tests_cant": "All nested shapes.", "anchors": ["body/chrumm/cfg.py:_init"]}
{"id": "C40", "title": "Mesh result independent of threads", "statement": "make returns the same parts, in the same order, with the same triangles for any number of worker threads and any completion order.", "quantifier": "all thread counts, completion orders, selections", "why_tests_cant": "Scheduling.", "anchors": ["body/chrumm/make.py:make"]}
{"id": "C41", "title": "Left half is the mirror image", "statement": "When the keyboard is split-symmetric the left parts are the right parts mirrored in x with orientation preserved.", "quantifier": "all configurations", "why_tests_cant": "All configurations.", "anchors": ["body/chrumm/make.py:make"]}
{"id": "C42", "title": "Command line", "statement": "Options are processed left to right; errors produce exit status and no output files; output names are derived from stem and part name.", "quantifier": "all argument vectors", "why_tests_cant": "All argv.", "anchors": ["body/chrumm/__main__.py:main"]}
{"id": "C43", "title": "PCB number formatting", "statement": "Numbers written to the PCB settings are the decimal rounding to three digits, without trailing zeros, and parse back to the rounded value.", "quantifier": "all numbers", "why_tests_cant": "All values.", "anchors": ["body/chrumm/pcb.py:pretty"]}
{"id": "C44", "title": "PCB angle labels", "statement": "Column angle labels show the sign and value of the angle exactly once.", "quantifier": "all angles", "why_tests_cant": "Boundary values.", "anchors": ["body/chrumm/pcb.py"]}
{"id": "C45", "title": "Seam cleaning", "statement": "Cleaning a 3mf file changes only the seam attributes of the model entry; enforcer->4, blocker->8, clear removes the attribute; the operation is idempotent; a missing model or an unknown command leaves the file untouched.", "quantifier": "all archives and contents", "why_tests_cant": "All contents.", "anchors": ["body/prusa/clean-3mf-seam.py"]}
{"id": "C46", "title": "Arc accuracy", "statement": "arc2D yields points exactly at the radius, starting at the first angle and ending at the second, with consecutive angular steps at most the configured maximum and sagitta at most the configured height; a full circle has no duplicate point.", "quantifier": "all radii, angles and tolerances", "why_tests_cant": "Holds for all real coordinates; tests sample a few.", "anchors": ["body/chrumm/part/arc.py:arc2D"]}
{"id": "C47", "title": "Corner arcs are tangent", "statement": "cornerArc2D replaces a corner by an arc that starts on the first and ends on the second leg and is tangent to both.", "quantifier": "all corners", "why_tests_cant": "Holds for all real coordinates; tests sample a few.", "anchors": ["body/chrumm/part/arc.py:cornerArc2D"]}
{"id": "C48", "title": "Support and knob are closed solids", "statement": "The meshes of the support and knob parts are closed: every directed edge is used as often as its reverse, so slicers see a solid. This holds for every configuration for which construction succeeds, provided the triangulation covers each flat face completely and no meshed strip contains a quad thinner than the tolerance.", "quantifier": "all configurations for which construction succeeds, all pop orders, any arithmetic", "why_tests_cant": "All configurations.", "anchors": ["body/chrumm/part/support.py", "body/chrumm/part/knob.py"]}
{"id": "C49", "title": "Key arrangement", "statement": "A layout is rejected with a ValueError exactly if the rows or thumb lists do not match. Otherwise each half has one key for every entry that is not an empty list, at column times columnPitch and row times rowPitch plus its stagger (mirrored for the left half, counted from the middle outward); the thumb keys form a chain that starts below the last key of the outermost column, each rotated by its angle and touching its neighbour at the pivot; the keys of both sides are the keys of the right and of the left; mirrored settings give equal halves; and the per-column and extreme-key queries return the outermost keys.", "quantifier": "all layout settings", "why_tests_cant": "All configurations.", "anchors": ["body/chrumm/part/layout.py:Layout", "body/chrumm/part/key.py:Key"]}
{"id": "C50", "title": "Boss clearance", "statement": "The distance the planner measures to a hull is the true distance to the enclosed area. A boss fitted between two keys at a wall stands its radius plus the margin inside the outer wall line, halfway between the two key axes, keeps at least its radius from both keys, and the wall is only ever moved outward, by the fewest quarter units that make room; the search ends unless a key is parallel to the wall. In a finished plan every boss stands between the two keys it is planned for, clear of both, and far enough inside the final outer wall.", "quantifier": "all settings, key sets, walls and boss sizes", "why_tests_cant": "Holds for all real coordinates; tests sample a few.", "anchors": ["body/chrumm/part/plan.py:_fitBoss2D", "body/chrumm/part/plan.py:Plan", "body/chrumm/geo/edge.py:Edge.distance2D"]}
{"id": "C51", "title": "Epsilon predicates", "statement": "isZero is symmetric in sign and means |x| < 1e-6; snapping a vector moves each coordinate by less than 1e-6, leaves no non-zero coordinate below 1e-6 and is idempotent; isClose is symmetric.", "quantifier": "all numbers", "why_tests_cant": "Holds for all real coordinates; tests sample a few.", "anchors": ["body/chrumm/geo/epsilon.py"]}
{"id": "C52", "title": "Surface normal of a polygon", "statement": "The surface normal of a polygon is the right-handed unit vector along its directed area; it does not depend on which vertex comes first or where the polygon lies, flips when the polygon is reversed, and the call raises exactly when the polygon has no directed area.", "quantifier": "all point lists of any length", "why_tests_cant": "Ranges over all real coordinates and polygons of any size; tests sample a few.", "anchors": ["body/chrumm/geo/vector.py:fromSurfaceNormal"]}
{"id": "C53", "title": "Faces keep their outside", "statement": "When a face is flattened for triangulation the edge polygon becomes counter-clockwise, whatever its orientation in space, areas and distances of flat faces survive up to 1e-11, and triangles that are counter-clockwise after flattening face the same side as the face; the directed areas of a complete triangulation add up to those of the edge and holes.", "quantifier": "all edges, holes and schedules", "why_tests_cant": "Ranges over all real coordinates and polygons of any size; tests sample a few.", "anchors": ["body/chrumm/geo/face.py:triangulate", "body/chrumm/geo/matrix.py:fromAlignment"]}
{"id": "C54", "title": "Parallel offset of a segment", "statement": "offset2D moves both ends of a segment by exactly the given distance, perpendicular to the segment and to its right for positive distances, keeps its direction and length in the plane, and raises exactly when both ends coincide in the xy plane.", "quantifier": "all segments and distances", "why_tests_cant": "Ranges over all real coordinates and polygons of any size; tests sample a few.", "anchors": ["body/chrumm/geo/segment.py:offset2D"]}
{"id": "C55", "title": "Closed meshes have a volume", "statement": "For a watertight mesh the directed areas cancel and the enclosed signed volume does not depend on the reference point.", "quantifier": "all watertight meshes", "why_tests_cant": "Ranges over all real coordinates and polygons of any size; tests sample a few.", "anchors": ["body/chrumm/geo/edge.py", "body/chrumm/geo/face.py", "body/chrumm/stl.py"]}
{"id": "C56", "title": "Bridges stay inside the face", "statement": "When a hole lies inside a simple outer polygon, the segment the program inserts to connect the hole to the polygon starts at the hole's rightmost vertex, ends at the nearest reflex vertex inside the search triangle of its rightward ray (or at the end of the side the ray meets first), and crosses no side of the polygon.", "quantifier": "all simple polygons and holes", "why_tests_cant": "Which vertex is visible depends on the whole polygon; the failing outlines are rare.", "anchors": ["body/chrumm/geo/face.py:Face._mergeHoles"]}
{"id": "C57", "title": "Which files are made", "statement": "make returns, in this order, rotary-knob.stl if knob is set, pcb-positions.kicad_mod if pcb is set, and one STL file for each of body, floor, palm (if set) and support (if set), right half before left half; with --knob at most the knob is made and nothing else is constructed.", "quantifier": "all configurations, thread counts and completion orders", "why_tests_cant": "All combinations of settings, thread counts and schedules.", "anchors": ["body/chrumm/make.py:make"]}
{"id": "C58", "title": "Holes for upright printing", "statement": "The sketch of an upright hole consists of a circular arc, two straight edges whose slope is the taper angle and which are tangent to the circle, and a horizontal bridge at the height of the radius; no edge cuts into the circle. The half hole has the same shape above the centre. Without a taper angle the sketch is the plain (half) circle.", "quantifier": "all radii, taper angles and arc qualities", "why_tests_cant": "Holds for all real parameters; tests sample a few.", "anchors": ["body/chrumm/part/arc.py uprightHole2D", "body/chrumm/part/arc.py uprightHalfHole2D"]}
{"id": "C59", "title": "Supports fit into the key hole", "statement": "The key hole support keeps baseGap and topGap to the two end walls of the hole and sideGap to its side walls, stays within the thickness of the roof, keeps sideGap to the lower surface if no inset is configured, and a key gets a copy of it, moved along with the key, exactly if its hole is turned from the print direction by at most minOverhangAngle.", "quantifier": "all support settings, arc qualities and key placements", "why_tests_cant": "Holds for all real parameters; tests sample a few.", "anchors": ["body/chrumm/part/support.py:SupportFactory", "body/chrumm/part/support.py:Support"]}
{"id": "C60", "title": "Walls enclose the keys", "statement": "The wall lines planned around a group of keys run at the configured angle, keep every key's lower outline on the inner side of the inner line and every upper outline on the inner side of the outer line, are one wall thickness apart and touch the outline of some key. In a finished plan the same holds of the final front, back, side and middle walls for the keys of both halves, and the thumb cluster stays in front of the alphanumeric block.", "quantifier": "all settings, key counts and angles", "why_tests_cant": "Holds for all real-valued settings and all key counts; tests sample a few.", "anchors": ["body/chrumm/part/plan.py:_wallLines2D", "body/chrumm/part/plan.py:Plan"]}
{"id": "C61", "title": "Key groups move rigidly", "statement": "Planning never changes the relative placement of the keys of one group (alphanumeric, pinky, thumb): all distances within a group are those of the flat layout. Where the tilted alphanumeric and pinky groups meet, the tops of the caps keep the flat column pitch.", "quantifier": "all settings, key counts and angles", "why_tests_cant": "Holds for all real-valued settings and all key counts; tests sample a few.", "anchors": ["body/chrumm/part/plan.py:Plan", "body/chrumm/part/layout.py:Layout"]}
{"id": "C62", "title": "The finished plan is consistent", "statement": "In a finished plan every key sits on the outer roof plane of its group, inner roofs are roofThickness below the outer ones, each body corner lies on the walls and the roof it joins, the half starts at the middle plane keeping half the minimal ridge width, the lowest key is exactly at the minimal roof height, all corners are above the lip and the pins of the switches clear the floor.", "quantifier": "all settings and key counts", "why_tests_cant": "Holds for all real-valued settings and all key counts; tests sample a few.", "anchors": ["body/chrumm/part/plan.py:Plan"]}
{"id": "C63", "title": "Symmetric settings give equal halves", "statement": "If the key rows of both halves are configured alike, planning the left and the right half fails with the same error or gives the same keys, walls, corners and bosses.", "quantifier": "all symmetric settings", "why_tests_cant": "Holds for all real-valued settings and all key counts; tests sample a few.", "anchors": ["body/chrumm/part/plan.py:Plan", "body/chrumm/part/layout.py:Layout"]}
{"id": "C64", "title": "Keys next to the back boss", "statement": "The boss at the back of the alphanumeric block is planned between the two columns whose back corners are nearest to the middle of the back edge.", "quantifier": "all settings and column counts", "why_tests_cant": "Holds for all real-valued settings and all key counts; tests sample a few.", "anchors": ["body/chrumm/part/plan.py:Plan"]}
{"id": "C65", "title": "Roofs and walls face where configured", "statement": "In a finished plan the roofs of the three key groups are tented by their configured angles, then tilted and split; the outer, front, back and side walls run at their configured angles; the creases halve the angle between the roofs they join, and the two roofs have the same height all along the crease.", "quantifier": "all settings, key counts and angles", "why_tests_cant": "Holds for all real-valued settings and all key counts; tests sample a few.", "anchors": ["body/chrumm/part/plan.py:Plan"]}
{"id": "C66", "title": "Thumb corner and ridge front", "statement": "The left side of the thumb cluster is the line along the mean direction of both innermost thumb keys which touches the cluster from the left; the corner there halves the angle between the front wall and the x axis; the front end of the ridge is the leftmost of the tapered ridge point and the point where the tightest line past all thumb keys meets that side.", "quantifier": "all settings, key counts and angles", "why_tests_cant": "Holds for all real-valued settings and all key counts; tests sample a few.", "anchors": ["body/chrumm/part/plan.py:Plan"]}
{"id": "C67", "title": "Palm rest hitch", "statement": "The hitch of the palm rest is a symmetric trapezoid at the middle of the front wall: it starts at the wall, ends margin plus depth away from it, tapers at the configured angle, keeps half the depth around both screws, and the screws are exactly the configured pitch apart, in the middle of the depth.", "quantifier": "all settings with a palm rest", "why_tests_cant": "Holds for all real-valued settings and all key counts; tests sample a few.", "anchors": ["body/chrumm/part/plan.py:Plan"]}
{"id": "C68", "title": "Screw boss of the palm rest mount", "statement": "The printed surface of a boss ends exactly along its three openings: the head part leaves open the clearance hole and the head hole, the thread part leaves open the thread hole, and nothing else. The thread runs straight up and every point of its tip stays at least the thread roof margin below the roof; the thread is as long as this and the maximum length allow, and never shorter than the configured minimum: otherwise the constructor fails.", "quantifier": "all boss settings, positions, walls and roofs", "why_tests_cant": "Holds for all real-valued settings and roof slopes, and for every number of arc points; tests sample a few.", "anchors": ["body/chrumm/part/boss.py:Boss"]}
{"id": "C69", "title": "The palm rest is a closed solid", "statement": "The mesh of the palm rest is watertight, with and without groove, clamps and bumpers: every directed edge of its triangles is matched by an opposite one, provided each flat face was triangulated completely and the outlines handed to the side faces have no edge shorter than the collapse threshold.", "quantifier": "all plans, palm settings, arc qualities and triangulation schedules", "why_tests_cant": "The number of points and faces depends on the settings; watertightness has to hold for every one of them.", "anchors": ["body/chrumm/part/palm.py:Palm", "body/chrumm/part/boss.py:Boss", "body/chrumm/part/bumper.py:Bumper"]}
{"id": "C70", "title": "The body is a closed solid", "statement": "The mesh of the keyboard body (walls, roof plates, key holes, screw threads, and when configured the corner brackets, cable exit, encoder seat and controller mount) is watertight: every directed edge of its triangles is matched by an opposite one, provided each flat face was triangulated completely, strips have no slivers, edges that pass through the collapse filter have no two different neighbouring points closer than its threshold, and the inner corners along the split line run from front to back.", "quantifier": "all plans (layouts, angles, both sides), body settings, arc qualities and triangulation schedules", "why_tests_cant": "The number of points, keys and faces depends on the settings; watertightness has to hold for every one of them.", "anchors": ["body/chrumm/part/body.py:Body", "body/chrumm/part/bracket.py", "body/chrumm/part/cable.py", "body/chrumm/part/encoder.py", "body/chrumm/part/key.py:Key"]}
{"id": "C71", "title": "Bosses flush with the wall never give a body", "statement": "If the screw bosses protrude from the wall by less than a tenth of the wall thickness, the planner accepts the settings and leaves out the wall edges of all bosses, and building the body then always fails with an exception.", "quantifier": "all layouts, angles and settings with flush bosses, in any arithmetic", "why_tests_cant": "Holds for every layout and all other settings, not only for the tested ones.", "anchors": ["body/chrumm/part/boss.py:Boss", "body/chrumm/part/body.py:Body"]}
{"id": "C72", "title": "The floor is a closed solid", "statement": "The mesh of the keyboard floor (outer wall, lip, chamfer, screw heads, and when configured the hexagonal holes, bumpers and brackets) is watertight: every directed edge of its triangles is matched by an opposite one, provided each flat face was triangulated completely, strips have no slivers, the outlines of the wall profile run from the front to the back of the split plane, edges that pass through the collapse filter have no two different neighbouring points closer than its threshold, and each bracket arch ends exactly on the lip or not near it.", "quantifier": "all plans (layouts, angles, both sides), bodies, floor settings, arc qualities and triangulation schedules", "why_tests_cant": "The number of points, holes and faces depends on the settings; watertightness has to hold for every one of them.", "anchors": ["body/chrumm/part/floor.py:Floor", "body/chrumm/part/bracket.py:FloorBracket", "body/chrumm/part/bumper.py:Bumper"]}
{"id": "C73", "title": "The hexagonal floor holes are regular, not too small, and keep their margin", "statement": "Each hexagonal hole of the floor is a regular hexagon with the full diameter, or a smaller one that is not below the minimum diameter; any two points of different holes are at least the hole margin apart; and rounding the corners keeps each hole inside its hexagon.", "quantifier": "all borders, hole settings and arc qualities; any two holes and any two points in them", "why_tests_cant": "The grid and the scaling factors depend on the border and on all settings; the distance must hold for each of the infinitely many pairs of points.", "anchors": ["body/chrumm/part/floor.py:_hexGrid2D", "body/chrumm/geo/edge.py:Edge.scaled", "body/chrumm/part/arc.py:cornerArc2D"]}
{"id": "C74", "title": "The hexagonal floor holes stay inside the border", "statement": "Every point strictly inside a hole of the grid is inside the border polygon and not on it, so no hole cuts the floor wall, provided the border lies in the ground plane and is in general position to the hexagons of the grid (no corner on it or near one of its points, no side almost but not exactly parallel to a line through two corners or to a line from a corner to a border point).", "quantifier": "all borders (also concave ones), hole settings, holes and points in the holes", "why_tests_cant": "The scaling factor is found from finitely many intersections, but the claim is about every point of each hole, for any border.", "anchors": ["body/chrumm/part/floor.py:_hexGrid2D", "body/chrumm/geo/edge.py:Edge.contains2D", "body/chrumm/geo/segment.py:Segment.intersect2D"]}
{"id": "C75", "title": "Inside and outside are regions", "statement": "The point-in-polygon test gives the same answer for all points along a path that does not touch the polygon; a point from which a path leads out of the polygon is reported as outside.", "quantifier": "all closed polygons (also concave or self-crossing ones), all paths of straight lines", "why_tests_cant": "There are infinitely many paths and polygons.", "anchors": ["body/chrumm/geo/edge.py:Edge.contains2D"]}
{"id": "C76", "title": "The hexagon grid ends exactly when its pitch is positive", "statement": "Computing the grid of floor holes takes finitely many steps for every border if the hole diameter and the hole margin give a positive pitch; if the pitch is zero or negative and the border is not left of the start of the grid, no number of steps yields a grid.", "quantifier": "all borders and hole settings", "why_tests_cant": "Termination for all settings cannot be tested.", "anchors": ["body/chrumm/part/floor.py:_hexGrid2D"]}
{"id": "C77", "title": "The PCB footprint shows the flat layout", "statement": "If the thumb cluster has the tent angle of the pinky keys, flattening the layout of a finished plan returns the configured flat layout with every key in its configured orientation: the first pinky key at the origin, and the alphanumeric and thumb keys shifted in the plane by the width of the crease and of the bend. A point that belongs to the boards of both groups in the plan is one point of the flat board, so the board is bent and not cut. The footprint of both halves is then written; if the thumb cluster has another tent angle and two of its keys are far enough apart, the footprint is empty.", "quantifier": "all settings, both plans, all board thicknesses, all keys and points of the boards", "why_tests_cant": "The motions of the plan must cancel for every combination of angles and layouts.", "anchors": ["body/chrumm/pcb.py:toKiCadFootprint", "body/chrumm/pcb.py:_flattenLayout", "body/chrumm/part/plan.py:Plan.__init__", "body/chrumm/part/plan.py:Plan._tentCreaseOffset"]}
{"id": "C78", "title": "The PCB footprint is a well-formed file with all switches", "statement": "A footprint that is not empty is a single list: every bracket outside of quoted strings has its partner and every quoted string ends, for every finite number it contains. It contains the triangle of every right key on the front layer and of every left key on the back layer, at the negated flat coordinates, and the markers of both mounting screws if they are configured.", "quantifier": "all layouts, settings and numbers", "why_tests_cant": "There are unboundedly many keys and all floats.", "anchors": ["body/chrumm/pcb.py:toKiCadFootprint", "body/chrumm/pcb.py:_writeKeys", "body/chrumm/pcb.py:_writeMounts", "body/chrumm/pcb.py:_writeKiCadMarker"]}
{"id": "C79", "title": "Every switch is read on its own", "statement": "After initialisation each scan of the key matrix reads, for each row and column, exactly whether that switch is closed at that moment, whatever other switches are closed (no ghost keys), whatever state the pins had before, and the pins are left as they were. The pins of the shipped configuration are all different.", "quantifier": "all pin assignments without duplicates, all initial pin states, all switch states that change at any time during the scans, all numbers of ticks", "why_tests_cant": "2^65 switch states and unbounded histories of them.", "anchors": ["firmware/chrumm/matrix.c:matrix_init", "firmware/chrumm/matrix.c:matrix_tick", "firmware/chrumm/config.h:MATRIX_ROW_PINS"]}
{"id": "C80", "title": "Faces are filled completely, convex or not", "statement": "Every simple counter-clockwise polygon with n vertices, convex or not, in which each vertex is farther than the tolerance from the lines through two others, is cut into exactly n-2 counter-clockwise triangles that do not overlap and cover each interior point once and no exterior point. A face with such an outline and no holes, anywhere in space, is triangulated completely: n-2 triangles bounded exactly by the outline and with the same directed area, whatever the order of the edge flips.", "quantifier": "all simple polygons of any size that keep the tolerance, all points of the plane, all orders of set.pop", "why_tests_cant": "Completeness is the two-ears theorem for all simple polygons; a test can only try some.", "anchors": ["body/chrumm/geo/face.py:Face._cutEars", "body/chrumm/geo/face.py:Face._flipTriangles", "body/chrumm/geo/face.py:Face.triangulate"]}
{"id": "C81", "title": "The inset of an outline is the parallel polygon", "statement": "Whenever the parallels of the sides of an outline at the given distance form a simple polygon whose sides keep their directions (with the side between the two ends left in place for open outlines), the offset outline is exactly that polygon, starting at its corner nearest to the start of the outline. In every case the loop removal stage leaves an outline without crossings, made of pieces of the given sides and with the same start.", "quantifier": "all outlines of any size, distances of either sign, open and closed; all polygons for the loop removal", "why_tests_cant": "Holds for outlines of every size and shape; tests can try some.", "anchors": ["body/chrumm/part/floor.py:_naiveOffset2D", "body/chrumm/geo/segment.py:Segment"]}
{"id": "C82", "title": "The lip of the floor fits into the body", "statement": "The wall profile of the floor consists of the outer outline of the body at the underside and at the seam, and of the parallels of the inner outline of the body: the lip's outer side is lipMargin inside the body wall, the lip is lipThickness thick and lipHeight high, and the chamfer at the inner floor follows at innerChamfer, all at the configured heights.", "quantifier": "all configurations, plans and bodies whose inner outline has clean parallels", "why_tests_cant": "Ranges over all configurations.", "anchors": ["body/chrumm/part/floor.py:Floor.__init__", "body/chrumm/part/floor.py:_naiveOffset2D"]}
{"id": "C83", "title": "The rubber feet keep their margin", "statement": "Each of the two outer feet lies so deep in the rounded corner of the keyboard that every point closer to it than the margin still belongs to the rounded corner; the two half feet at the split plane begin at the margin from the front and the back end of the floor and end one diameter further, flat against the split plane. All feet open at the underside, and the recess is as deep as configured.", "quantifier": "all configurations, plans, bodies and corner angles, all points of the plane", "why_tests_cant": "All corner angles and radii.", "anchors": ["body/chrumm/part/floor.py:_cornerBumper", "body/chrumm/part/floor.py:Floor.__init__", "body/chrumm/part/bumper.py:Bumper"]}
{"id": "C84", "title": "The screw holes of a boss", "statement": "The hole for a screw head in the floor is a clearance hole of the configured diameter and length, followed by a countersink that widens by as much as it gets deeper and that ends at the configured diameter or at the underside of the floor, whichever comes first, followed by a straight hole to the underside. The thread hole in the body has the outline of an upright printable hole whose top points along the print direction, and is widened at its mouth by the chamfer.", "quantifier": "all configurations, positions, print directions and roofs for which a boss is made", "why_tests_cant": "Ranges over all configurations and directions.", "anchors": ["body/chrumm/part/boss.py:Boss._initHead", "body/chrumm/part/boss.py:Boss._initThread"]}
{"id": "C85", "title": "A boss grows smoothly out of the wall and keeps its radius", "statement": "The outline of a boss at the inner side of the wall consists of points of the boss circle and of fillets that touch the wall; circle and fillet are joined by their common tangent, at an angle between 0 and 89 degrees that respects the overhang limit on the side that hangs over while printing. No point of the outline is closer to the axis of the screw than the radius of the boss. A boss that does not reach out of the wall has no outline.", "quantifier": "all configurations, positions and wall directions", "why_tests_cant": "Ranges over all configurations and directions, all points of the outline.", "anchors": ["body/chrumm/part/boss.py:Boss._initWall", "body/chrumm/part/boss.py:_smoothTransition"]}
{"id": "C86", "title": "The screws of the brackets keep their margins and line up", "statement": "In each of the three kinds of brackets the bore of the screw (the nut hexagon on the nut side, the screw head on the other) keeps the configured margins from the sides of the bracket before their corners are rounded: the base margin from floor or roof, the apex margin from the opposite side, the taper margin from the sides that lean by the taper angle, and the wall margin from lip or wall, plus the extra margins and the cable inset where configured. The hole in the split plane is the same for both halves. Without a switch mount the feet of the roof bracket stay between back wall and ridge whenever it is not longer than the roof.", "quantifier": "all configurations, positions of walls, roof and lip, both sides, every point of the bore", "why_tests_cant": "Ranges over all configurations and roof angles.", "anchors": ["body/chrumm/part/bracket.py:FloorBracket", "body/chrumm/part/bracket.py:CornerBracket", "body/chrumm/part/bracket.py:RoofBracket", "body/chrumm/part/bracket.py:_hexTangentDist", "body/chrumm/part/bracket.py:_screwHole"]}
{"id": "C87", "title": "A switch passes through its hole", "statement": "No triangle of a key reaches into the opening of the configured switch width and depth, for switches that clip in at front and back as well as for sideways ones, and the walls of the hole stay within the thickness of the roof. The opening at the underside is exactly the rectangle of the switch, with two tapered clip notches of the configured size at the clipping sides if the notch is lower than the roof is thick; the opening at the top is the rectangle with the entry chamfer at its corners. The room kept free for a key is the switch with its margins, its pins, and the cap with a full gap to its neighbours.", "quantifier": "all configurations, every key wherever it is moved or turned, every triangle", "why_tests_cant": "Ranges over all switch dimensions, clip notches and placements.", "anchors": ["body/chrumm/part/key.py:KeyFactory", "body/chrumm/part/key.py:Key"]}
{"id": "C88", "title": "The cable has room and is never bent too tightly", "statement": "When the body with brackets and a cable exit is made, a cable of the configured diameter fits through the wall, over the bump behind the wall and around the hump of the back bracket: the passage through the wall is at least the diameter high; the bump lies within a circle of the minimal bend radius below it; the hump is an arc of the minimal bend radius around a second centre, its height is the configured one; and any two points of the two circles keep the diameter apart. The slot of the zip tie has the configured height, length and rounded ends, lies in front of the tapered face of the bracket and keeps the taper margin from the front of the hump. No bracket and no bump reaches into the lip of the floor with its margin.", "quantifier": "all plans and configurations with 0 <= taper < 90 degrees, whose roof rises or is level toward the back wall; every point of the outlines", "why_tests_cant": "Ranges over all configurations and plans; the room depends on the intersection of the roof, the wall and the hump.", "anchors": ["body/chrumm/part/cable.py:Cable", "body/chrumm/part/bracket.py:CornerBracket", "body/chrumm/part/body.py:Body"]}
{"id": "C89", "title": "The rotary encoder fits into its recess", "statement": "The recess of the encoder is cut upright to the outer roof of the ridge, on the split plane, at the configured relative position between front and back of the ridge. Seen along the normal of the roof, the hole for the shaft has the configured radius (plus the chamfer at the roof) or more and ends at the configured depth, and below that depth the space of the configured width and depth is free: no triangle of the recess reaches into it. The opening in the inner roof is the box with its pin notch, every corner of it lies on the inner roof, and it lies within the inner roof of the ridge or no body is made.", "quantifier": "all configurations, all upright positions of the two roof planes, every triangulation that uses only the corners of a face, every triangle", "why_tests_cant": "Ranges over all roof planes and configurations; tests can only compare single outputs.", "anchors": ["body/chrumm/part/encoder.py:Encoder", "body/chrumm/part/body.py:Body"]}
{"id": "C90", "title": "The knob has the configured size", "statement": "Every corner of every triangle of the knob lies on one of its designed rings: the flat top at z = 0 within the outer radius less the chamfer, the end of a 45 degree chamfer on the grooved outline, the grooved outline at the full height (skirt + shaft + roof), the inner skirt circle (outer radius less the skirt thickness) at the full height and at the depth of the socket, or the socket, between roof thickness and socket depth. So the knob stays within the configured diameter and height, the skirt is nowhere thinner than skirtThickness - grooveInset (up to 2e-6) and the socket never breaks through the roof.", "quantifier": "all knob configurations with sane sizes, all qualities, all triangulation schedules, every corner of every triangle", "why_tests_cant": "Ranges over all sizes and triangulations; a test sees one configuration.", "anchors": ["body/chrumm/part/knob.py:Knob"]}
{"id": "C91", "title": "The grooves of the knob do not collide", "statement": "If the rounded corners of neighbouring grooves leave room for each other (law of cosines), the outline of the knob before point cleaning runs exactly once around the axis and never turns back, consists of grooveCount equal mirror-symmetric sectors, stays between outer radius - grooveInset and outer radius and reaches both. If they do not, the code does not notice: the outline is still drawn but turns back on itself (on the default knob with 12 grooves or more).", "quantifier": "all knob configurations with at least one groove, all qualities, every point of the outline", "why_tests_cant": "The direction of the outline must grow at every step for every size and groove count.", "anchors": ["body/chrumm/part/knob.py:Knob"]}
{"id": "C92", "title": "The D-shaped shaft fits into the socket and is gripped", "statement": "The outline of the socket is mirror-symmetric, no point of it reaches into the D-shaped shaft (each lies on the shaft circle or beyond the flat, up to 2e-6), the shaft circle runs up to the edge of the flat, the prong touches the flat up to the chord height at a third of its half width, its ramp rises by 15 degrees from a rounded hinge within the shaft circle, and everything lies within shaftAcrossFlat + prongDiameter of the axis.", "quantifier": "all shaft and prong sizes for which the prong fits, all qualities, every point of the outline", "why_tests_cant": "Tangency and clearance have to hold for every size, not for the default shaft.", "anchors": ["body/chrumm/part/knob.py:Knob"]}
{"id": "C93", "title": "The palm rest has the configured size and touches the front wall line", "statement": "Every corner of every triangle of the palm rest belongs to one of the two screw threads of the hitch, or is a point that lies, seen from the front wall of the body, between the margin and margin + depth before the wall, between the two tapered sides that start at the ends of the wall, above the desk (seam - floor height) and below the configured height over the desk; corners of the optional groove keep to the same ground view and lie on the groove profile or within the clamp height. The box is filled: the outline of the left side reaches its top, its bottom, its back and its front exactly.", "quantifier": "all palm settings with moderate angles and fitting radii (tent angle >= 0), with or without groove and rubber feet, all plans, qualities and triangulation schedules, every corner of every triangle", "why_tests_cant": "Ranges over all settings and triangulations; a test sees one palm rest.", "anchors": ["body/chrumm/part/palm.py:Palm"]}
{"id": "C94", "title": "The hitch of the body fits into the notch of the palm rest", "statement": "If the palm rest is built (the constructor raises for a notch that is too small), then the ceiling of its notch is a face in the seam plane with the two thread holes of the hitch, and through every point of the outline of the notch runs a line that has the whole hitch, with its rounded front corners, strictly on the other side. The body draws exactly this rounded front: all points of the two front arcs of the hitch in the outline of the body lie in that (convex) region.", "quantifier": "all palm and plan settings (margin >= 0), qualities, every point of the notch outline and every point of the hitch", "why_tests_cant": "Two independently computed outlines must not touch for any accepted settings; the code only compares two widths and two depths.", "anchors": ["body/chrumm/part/palm.py:Palm", "body/chrumm/part/body.py:Body", "body/chrumm/part/plan.py:Plan"]}
{"id": "C95", "title": "The palm rest is a smooth ruled surface between two tapered sides", "statement": "Every point of the outlines of the two sides lies exactly in its tapered side plane and either belongs to the fillet at the floor or on a straight line, sloped by the tent angle, through a point of one and the same profile; that profile is an arc of the fillet radius at the back, the roof arc and an arc of the fillet radius at the front, joined without kinks; the points of the groove lie on the parallel curve gr_roofMargin below it.", "quantifier": "all palm settings with moderate angles and fitting radii, all plans and qualities, every point of the side outlines", "why_tests_cant": "Continuity and parallelism have to hold for all angles and radii.", "anchors": ["body/chrumm/part/palm.py:Palm._roofSpine", "body/chrumm/part/palm.py:Palm"]}
{"id": "C96", "title": "The chamfers of the body run beside its edges in the planes of the roof", "statement": "The points that replace the corners of a roof edge lie in the roof plane through the corner, exactly the size of the chamfer to the left of both of its sides (of the first side where the edge is almost straight). The body draws its outer edge (front, right, back) and its inner edge with two bands: one from the points straight below the edge, the size of the chamfer down, to these points in the roof planes of the thumb cluster, the pinky keys and the alphanumeric keys; and one from there straight down to the ground. Where two roofs meet, the band ends on the line of the crease, as far from the wall as its neighbour.", "quantifier": "all plans and body settings (moderate tents), all corner radii and qualities, every corner of every chamfered edge", "why_tests_cant": "Ranges over all settings; a mesh test sees one body.", "anchors": ["body/chrumm/part/body.py:_chamfer", "body/chrumm/part/body.py:_parallelChamfer", "body/chrumm/part/body.py:_cornerChamfer", "body/chrumm/part/body.py:Body"]}
{"id": "C97", "title": "The step between the roofs is flat and stands on the thumb roof", "statement": "Between the alphanumeric roof and the thumb cluster, outside and inside, the body has a bent strip that rises, parallel to the upright edge of the wall, from the rounded corner drawn on the thumb roof to one plane, and a fan of triangles in this plane around a corner of the alphanumeric roof that is chamfered by 5/4 of the size.", "quantifier": "all plans and body settings, all corner radii and qualities, every point of the strip", "why_tests_cant": "Ranges over all settings; a test sees one step.", "anchors": ["body/chrumm/part/body.py:Body"]}
{"id": "C98", "title": "The wall keeps its thickness around the rounded corners", "statement": "The outer and the inner outline of the body have three rounded corners each: at the front left, the front right and the back right. The two arcs of a corner have a common centre; the outer one has the configured corner radius and the inner one the corner radius minus the wall thickness, so the wall is exactly as thick around the corner as along its sides.", "quantifier": "all plans and body settings whose walls meet at these corners, all qualities, every point of the six arcs", "why_tests_cant": "Two independently computed arcs must agree for every angle between the walls.", "anchors": ["body/chrumm/part/body.py:Body", "body/chrumm/part/arc.py:cornerArc2D", "body/chrumm/part/plan.py:Plan"]}
{"id": "C100", "title": "A body is only built when its parts keep clear of each other", "statement": "Whenever the body is built at all, the chamfers are smaller than the corner radii and fillets; along the inner outline the walls around the bosses and the rounded corners follow each other without overlap; the front bracket ends before the front of the ridge and its edge under the roof stays on the split's side of the roof's front edge; the back bracket ends before the corner of the walls.", "quantifier": "all plans and body settings for which the constructor returns, every point of the brackets", "why_tests_cant": "A missing or reversed comparison only shows for settings whose parts collide in exactly that place.", "anchors": ["body/chrumm/part/body.py:Body", "body/chrumm/part/bracket.py:CornerBracket"]}
{"id": "C101", "title": "The boss for the circuit board stands at the configured place beside the first pinky key", "statement": "The body has a boss for the circuit board. In the coordinates of the first key of the pinky, its axis lies the configured distances behind and beside the key, its lower end lies the switch's inner height below the key, turned by a quarter and the split angle; it is as high as configured, its bore is the upright hole of the configured diameter at both ends and its rounded side has the configured diameter. Nothing is distorted: the axis has the configured distance from the key in space.", "quantifier": "all plans, bodies, keys' positions, angles and settings with brackets and a board", "why_tests_cant": "The key's placement in space depends on all tents, tilts and splits.", "anchors": ["body/chrumm/part/bracket.py:RoofBracket", "body/chrumm/part/body.py:Body"]}
{"id": "C99", "title": "Every face of the body that is triangulated is flat", "statement": "The outline and the holes of every face that the body hands to the triangulation lie in one plane: the roof plates with their key holes, the split, the walls around the cable exit, the brackets, the boss for the circuit board, the encoder's recess and the ground. The exceptions are spelled out: with different tents for thumb and pinky, the inner plates that meet at the inner front corner of the alphanumeric keys; and the roof's edge at a cable's back bracket when its first point is dropped as a near duplicate.", "quantifier": "all plans and body settings for which the body is built, with or without brackets, cable, encoder and board, every face", "why_tests_cant": "A face that is slightly bent is triangulated without complaint; it shows only as a sliver or a step on some layouts and angles.", "anchors": ["body/chrumm/part/body.py:Body", "body/chrumm/part/bracket.py:CornerBracket,RoofBracket", "body/chrumm/part/cable.py:Cable", "body/chrumm/part/encoder.py:Encoder", "body/chrumm/geo/face.py:Face"]}
{"id": "C102", "title": "Every triangulated face of the knob, the supports and the palm rest is flat", "statement": "The outline and the holes of every face that the knob, the bridge supports and the palm rest hand to the triangulation lie in one plane: of the knob for all settings with which it can be drawn, of a support for all settings, and of the palm rest (floor with feet, both sides, the seat of the hitch with its screw holes, the walls of the groove) for all sane settings.", "quantifier": "all settings of knob and support for which they can be drawn, all plans and sane palm settings, with or without groove and feet", "why_tests_cant": "The outlines are made of arcs and intersections whose shape depends on a dozen settings; a bent face is triangulated without complaint and leaves a step.", "anchors": ["body/chrumm/part/knob.py:Knob", "body/chrumm/part/support.py:Support", "body/chrumm/part/palm.py:Palm", "body/chrumm/geo/face.py:Face"]}
{"id": "C103", "title": "Every triangulated face of the floor is flat", "statement": "The outline and the holes of every face that the floor hands to the triangulation lie in one plane: the ground with feet, screw heads and hexagons, the inner floor, the rim on which the body stands, the top of the lip, the split and the sides of the brackets. Only the feet of the brackets may leave the inner floor, on the split or on the side of the bracket.", "quantifier": "all plans and bodies, all floor settings with or without hexagons, feet, brackets and cable, whose wall profile runs from the front to the back of the split", "why_tests_cant": "The outlines come from offsetting, cutting and rounding loops whose number of points depends on the settings; a bent face is triangulated without complaint.", "anchors": ["body/chrumm/part/floor.py:Floor", "body/chrumm/part/bracket.py:FloorBracket", "body/chrumm/part/bumper.py:Bumper", "body/chrumm/geo/face.py:Face"]}
