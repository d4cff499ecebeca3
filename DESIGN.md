# Formal model of sevmeyer/chrumm-keyboard in Coq

## What the repository is

Two programs: (a) `firmware/chrumm/*.c`, the keyboard firmware (matrix scan, debounce,
layers, HID report, rotary encoder, LED), and (b) `body/chrumm`, a Python CAD
program that turns JSON parameters into binary STL files (vector/matrix algebra, edge
meshing, polygon triangulation, config merging, STL writing, PCB footprint).

## Modelling approach

* Shallow, executable Gallina functions, one per C/Python function, branch by branch.
  Each definition cites file and lines. Exceptions are values of a result type
  (`Ok x` / `Err e`), loops are structural recursion or fuelled recursion with an
  explicit out-of-fuel error that the theorems exclude.
* C: machine integers are `Z`/`N` with the truncation written explicitly where width
  matters (`uint8_t` state byte, `uint16_t` codes). Static variables become record fields.
  GPIO, TinyUSB (ready / accepted / suspended) are inputs of each tick: every theorem
  quantifies over all of them.
* Python numbers: the mesh/triangulation code is modelled over an arbitrary record of
  number operations *without any laws* (class `Num`), so combinatorial theorems (watertightness,
  termination, counts) hold for IEEE doubles including NaN. Geometric theorems instantiate
  it with Coq's real numbers `R`: they say what the code computes in exact arithmetic;
  rounding is not modelled.
* `set.pop()` order and `Pool.map` completion order are explicit schedules the theorems
  quantify over.
* Mesh topology: a mesh has boundary `L` iff for every antisymmetric weight on directed
  edges the sum over all triangle edges equals the sum over `L`; for the closed-solid
  theorems this is turned into counting (every directed edge occurs as often as its reverse).

## Per-property plan

| id | model | proof |
|----|-------|-------|
| C01-C05 | `debounce` on one byte, `matrix_tick` on the array | invariants by induction over the sample list |
| C06,C07 | `report` with layer, fnTaps, bootTaps | refinement to a history specification |
| C08-C12 | `hid.c` state and `report` | invariants over all event histories, `_refuted` witnesses |
| C13-C15 | `encoder.c` table and pulse | invariant linking the table state with the position of the walk |
| C16 | `led.c` | closed form by induction over ticks |
| C17 | `usb.c` string descriptors | computation and induction over the id |
| C18 | main loop | composition of the above |
| C19-C27 | `geo` classes over R | ring/field/nra proofs |
| C28-C37 | `Edge`, `Face` algorithms | inductions with chain invariants, potential function |
| C38-C42,C45 | stl, cfg, make, main, clean-3mf | round-trips and refinement to small specs |
| C43,C44 | pcb number formatting | arithmetic on scaled integers |
| C46, C47, C51 | `arc.py`, `epsilon.py` over R | real analysis (sin/cos), chord heights, tangency |
| C48, C59 | `support.py`, `knob.py`, `Mesh` values (`MeshModel.v`) | boundary algebra of strips and faces; bounds over R |
| C49 | `key.py`, `layout.py` | explicit places of every key, chain of the thumb keys |
| C50, C60-C67 | `plan.py`, `boss.py` (all of `Plan.__init__`) | rigid motions of keys and planes; invariant of the boss search loop; hull distances |
| C52, C53 | `Edge.normal`, `Face` over R | Newell sum; signed areas along the triangulation |
| C54 | `Segment.offset2D` | algebra over R |
| C55 | sums over triangle meshes | divergence theorem for closed meshes (translation invariance of the volume sum) |
| C56 | `Face._mergeHoles` bridge search | exact description of the chosen vertex; `_refuted` witness for the visibility claim |
| C57 | `make.py`, `__main__.py` | refinement to a list of files per option set |
| C58 | `arc.py` upright holes | real analysis, `_refuted` witness for small taper angles |
| C68, C69 | `boss.py`, `palm.py`, `cable.py` | boundary algebra; geometry of the thread tip |
| C70, C71 | `body.py`, `bracket.py`, `bumper.py`, `encoder.py` | boundary algebra for the complete body mesh |
| C72-C76 | `floor.py` | boundary algebra; scaling of hexagons; crossing-number invariance along paths (a piecewise linear Jordan argument) |
| C77, C78 | `pcb.py` | the motions of the plan cancel; scanner for s-expressions |
| C79 | `matrix_init`, `matrix_tick` at the level of pins | electrical model of a diode matrix; induction over rows and columns |
| C80 | `Face._cutEars`, `Face.triangulate` | two-ears theorem: ray-crossing parity (Jordan, even-odd) for polygons in general position, existence of an inner diagonal, splitting by it, strong induction on the number of vertices; invariant of the cutting loop with its cache |
| C81 | `_naiveOffset2D` | specification: parallels of the sides and their corners; the connected segments are exactly the sides of the parallel polygon, no loop is cut, the start is the nearest corner; invariant of the loop cutting (no crossing left of the current position) |
| C82 | `Floor.__init__` wall profile | C81 for the three offsets of the body's inner outline, heights by computation |
| C83 | `_cornerBumper`, `Bumper`, bumpers of `Floor.__init__` | half-angle geometry of the corner; a disc of radius `inset` round the position is a union of discs of the corner radius that fit into the corner (or lies in the corner's own disc) |
| C84 | `Boss._initHead`, `Boss._initThread` | explicit form of the four rings and of the turned, scaled hole outline; the sampled points of an arc are those of `ArcShape` |
| C85 | `Boss._initWall`, `_smoothTransition` | specification: points of circle and fillet, equation of the common tangent; distance from the axis by the sum-of-squares form of the fillet |
| C86 | `FloorBracket`, `CornerBracket`, `RoofBracket`, `_screwHole`, `_hexTangentDist` | the distance of the angled tangent is the support of the hexagon (cosines of multiples of 60 degrees); the corners solve the line equations; the right face has the bore as its hole; the clearance to the arm of the PCB mount is not covered (the arm is not square to the roof) |
| C87 | `KeyFactory.__init__`, `Key` | every strip of the mesh lies on the outer side of one wall, half and quarter turns permute the walls; the outlines are computed for dimensions of at least a thousandth (the threshold of `collapsed`) |
| C88 | `Cable`, `CornerBracket` with cable, `Body` (ridge) | sketch of bump and hump computed from arcs and line intersections; the circles keep apart because of the check in `CornerBracket`; triangle inequality; the faces of the mesh contain these outlines |
| C89 | `Encoder`, `Body` (encoder) | the alignment is a rigid motion g that takes the z axis to the roof normal (C21); all points of the mesh are images under g of explicit local points; strips are analysed quad by quad; walls follow the normal, so their local x and y stay those of the box |
| C90 | `Knob` | every point of the mesh is a corner of one of its edges; radii of the grooved outline from the circle geometry of C91, of the socket from C92; snapping lowers a radius by at most 2e-6 |
| C91 | `Knob._grooveSketch2D` | corner circle from the intersection of two circles; crossing products of neighbouring points are positive along the three arcs of half a sector, so the direction grows; mirrored and turned copies are glued by induction on the number of sectors; the sketch is shown to be drawn (no exception) under explicit size conditions, and 12 grooves on the default knob give the counterexample |
| C92 | `Knob._shaftSketch2D` | tangent equation of the hinge circle solved in closed form; each arc is then bounded on its circle |
| C93 | `Palm` | every point of the mesh is traced to the edge it comes from; each edge is intersected with one of the two side planes or with the floor; the height comes from the maximum that lifts the roof, reached on the left for tent angles >= 0 |
| C94 | `Palm` (notch), `Body` (outline), `Plan` (hitch) | support functions: a point of the notch with direction t has support `hr` from its corner centre; the hitch with the same direction is bounded by its core + `hr`; the difference of the centres is positive by the two checks of the constructor; the arcs of the body are computed in the frame of the wall |
| C95 | `_roofSpine`, `Palm` | the three arcs in closed form (same centres for every inset), so the groove is parallel; each ruling is cut with a side plane |
| C96 | `_chamfer`, `_cornerChamfer`, `_parallelChamfer`, `Body` | two lines of a plane are offset and intersected (`offsets_meet`); induction over the edge; the corners are on the roof planes by C62, the creases by C65_creases; the strips are traced into the mesh of the body |
| C97 | `Body` (step) | the lifted points are intersections of parallel lines with a plane through three points; traced into the mesh |
| C98 | `Body` (corners, outlines) | the centre of a corner arc is the point at distance r inside both walls (`corner_centre`); the planes of a wall are parallel, so both centres solve the same two equations; at the left, the thumb plane bisects the front wall and the x axis |
| C99 | `Body`, `CornerBracket`, `RoofBracket`, `Cable`, `Encoder`: all faces | each face of the mesh is traced to its plane: the roof planes for the plates (the chamfer runs of C96 stay in them), planes of constant x, y or z for split, walls, brackets and ground, the slope of the roof for the edge between the brackets, the key's frame for the boss of the board, and an isometry for the recess |
| C102 | `Knob`, `Support`, `Palm`: all faces | knob and support: every construction step keeps the height (or x); palm rest: the sides and the groove lie in the tapered planes by the facts of C93 to C95, the floor at the floor height by the first and last points of the fillets, the seat at height zero; placing is a turn about the vertical |
| C103 | `Floor`: all faces | invariants of every loop of the offset and of the hexagons (height zero), brackets drawn at one x, half feet from the ends of their arcs; the first and last profile points lie on the split |
| C100 | `Body` (checks), outlines | the constructor's comparisons are read off the successful run and transferred to the ground outline (raising and lowering keeps x and y) and to the 2D distance from the roof line |
| C101 | `RoofBracket._makeBoss`, `Body` | the boss's faces are found in the body's mesh, each drawing point written as a rotation, a shift and the key's matrix; the matrix is an isometry because the planner built it |

How the closed-solid theorems (C48, C69, C70, C72) are layered: (1) for every arithmetic, a mesh expression
whose strips are clean and whose faces are exact has the boundary its outlines say; (2) the mesh expression that
the program builds has boundaries that cancel; (3) over the reals exactness of a face follows from a complete
triangulation (the number of triangles is the number of corners minus two); completeness itself is proved for
convex faces (C35) and for simple outlines without holes (C80), and is a hypothesis elsewhere, checked for the default keyboard by kernel computation in the
`_nonvacuous` examples.

## Trusted base

* Coq 8.16.1's kernel (with `vm_compute`'s virtual machine, used only in concrete `Example`s and finite
  case tables).
* Axioms: only those of the standard library's real numbers, listed per theorem in `ASSUMPTIONS.md`
  (generated by `tools/assumptions.py` from `Print Assumptions`; each `P_*.v` file also prints them):
  `ClassicalDedekindReals.sig_forall_dec`, `ClassicalDedekindReals.sig_not_dec`,
  `Classical_Prop.classic`, `FunctionalExtensionality.functional_extensionality_dep`.
  All firmware theorems and all theorems for arbitrary number types are closed under the global context.
  No axiom is declared in this development.
* Libraries: Coq's standard library, and Flocq (`P_Stl.v`, `Pretty*.v`: binary32/binary64 formats).
* The translation of C and Python into Gallina was made by hand. It is checked by the line references, by
  the mutation log `seeded/LOG.jsonl` (each line is a wrong program and the theorems that notice it), and by examples
  computed with the default settings (`Calc.v`, binary fixed point with 40 fraction bits, is only used there).

## What is modelled

* Firmware: `matrix.c`, `encoder.c`, `hid.c`, `led.c` in full (the initial GPIO setup only for the matrix,
  in `FwPins.v`), the loop of `main.c`, the string descriptors of `usb.c`, the layers and timings of `config.h`.
* `body/chrumm/geo`: all classes and methods, except `Vector.__repr__` and `Matrix.__sub__` (unused).
* `body/chrumm/part`: all classes and functions.
* `body/chrumm/{cfg,make,stl,pcb,__main__}.py`, `body/prusa/clean-3mf-seam.py` (text functions).

## What is not modelled

* Floating point rounding in geometric theorems (they hold for exact reals); theorems for arbitrary `Num`
  do not depend on rounding. STL output and number formatting are modelled on IEEE formats.
* `math.asin` and float `%` in the brackets are arbitrary functions of the model.
* USB device, configuration and report descriptors (constants from TinyUSB macros), TinyUSB itself (its answers are
  inputs of the theorems), clock and watchdog setup, real time (ticks are counted).
* Logging, except where it decides the result; ZIP reading and writing of `clean-3mf-seam.py`; operating system failures
  while writing files; JSON parsing (the parsed value is the input of the `cfg` model); `copy.deepcopy` (values are immutable).
* Process isolation of `multiprocessing.Pool`: modelled as an arbitrary assignment and completion order of
  pure jobs.

## Simplifications worth knowing

* Python objects that are changed in place (keys of a layout, planes) become functions that return the changed
  value; no two places of the program share such an object while one changes it.
* `while` loops have fuel; running out is the error `OutOfFuel`, which no Python run produces. Theorems about results
  hold for every fuel; termination is proved separately where it is a claim (C36/C37, C50, C76).
* Exceptions carry a class, not a message.
* Configuration for the parts is a record of numbers; reading it from JSON is `CfgModel.v` (C39).
