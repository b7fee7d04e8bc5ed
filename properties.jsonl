{"id": "C01", "title": "Packed coordinates decode to what was encoded", "statement": "For a CoordinateFormat with at least one integer and one decimal digit, in either zero-omission mode, every coordinate that lies on the format's grid and fits its integer digits is packed without error, and unpacking the packed text with the same format returns exactly the original coordinate.", "quantifier": "all digit counts (integer >= 1, decimal >= 1), both zero modes, both signs, every on-grid in-range value", "why_tests_cant": "the set of formats and values is infinite; a wrong pad/strip side only shows for particular digit patterns", "anchors": ["src/pygerber/gerber/ast/state_tracking_visitor.py:CoordinateFormat._pack_skip_leading", "src/pygerber/gerber/ast/state_tracking_visitor.py:CoordinateFormat._pack_skip_trailing", "src/pygerber/gerber/ast/state_tracking_visitor.py:CoordinateFormat._unpack_skip_leading", "src/pygerber/gerber/ast/state_tracking_visitor.py:CoordinateFormat._unpack_skip_trailing", "src/pygerber/gerber/ast/state_tracking_visitor.py:CoordinateFormat._unpack_preprocess"]}
{"id": "C02", "title": "Unpacking reads omitted zeros on the right side and rejects the rest", "statement": "Unpacking a signed digit string yields sign*digits/10^decimal in leading-omission mode (so adding leading zeros changes nothing) and sign*digits*10^(integer+decimal-length)/10^decimal in trailing-omission mode (so adding trailing zeros changes nothing); it raises TooShort exactly for an empty digit part and TooLong exactly when there are more digits than the format has.", "quantifier": "all formats and all strings made of an optional sign and digits", "why_tests_cant": "only finitely many strings can be tried, the law relates every string to all its zero-padded variants", "anchors": ["src/pygerber/gerber/ast/state_tracking_visitor.py:CoordinateFormat._unpack_skip_leading", "src/pygerber/gerber/ast/state_tracking_visitor.py:CoordinateFormat._unpack_skip_trailing", "src/pygerber/gerber/ast/state_tracking_visitor.py:CoordinateFormat._unpack_preprocess"]}
{"id": "C03", "title": "Packing never silently loses a coordinate, whatever the format", "statement": "For every format that the FS command can express (any digit counts) and every value, pack either returns text that unpacks to the value rounded to the grid or raises the documented PackedCoordinateTooLong error when the integer part does not fit.", "quantifier": "all formats including zero integer or zero decimal digits, all values", "why_tests_cant": "degenerate formats are not exercised by example files", "anchors": ["src/pygerber/gerber/ast/state_tracking_visitor.py:CoordinateFormat._pack_skip_leading", "src/pygerber/gerber/ast/state_tracking_visitor.py:CoordinateFormat._pack_skip_trailing"]}
{"id": "C04", "title": "Modal graphics state is last-write-wins", "statement": "After processing any sequence of commands without error, units, coordinate format, interpolation mode, quadrant mode, polarity, mirroring, rotation, scaling, region flag, selected aperture and the legacy image attributes each equal the value given by the most recent command that sets that parameter (defaults if none), independent of all other commands.", "quantifier": "all command sequences of any length and order", "why_tests_cant": "interactions between ~40 commands in arbitrary order cannot be enumerated", "anchors": ["src/pygerber/gerber/ast/state_tracking_visitor.py:StateTrackingVisitor", "src/pygerber/gerber/ast/state_tracking_visitor.py:State"]}
{"id": "C05", "title": "Current point follows the operations axis by axis", "statement": "After any error-free command sequence the current point is, per axis, the coordinate given by the last D01/D02/D03 that carried this axis (0 if none); a D01 is reported with the previous current point as start and with missing axes equal to the start's.", "quantifier": "all sequences of D01/D02/D03 with arbitrary subsets of X/Y present, interleaved with any other commands", "why_tests_cant": "the number of present/absent patterns grows exponentially with the sequence length", "anchors": ["src/pygerber/gerber/ast/state_tracking_visitor.py:StateTrackingVisitor.on_d01", "src/pygerber/gerber/ast/state_tracking_visitor.py:StateTrackingVisitor._update_coordinates", "src/pygerber/gerber/ast/state_tracking_visitor.py:StateTrackingVisitor.coordinate_x"]}
{"id": "C06", "title": "D01 is dispatched to the handler of the current modes", "statement": "At every point of every command history, a D01 invokes exactly one draw callback: the one for the current interpolation mode (G01/G02/G03), quadrant mode (G74/G75) and region state (between G36 and G37).", "quantifier": "all command histories", "why_tests_cant": "the handler is cached and re-computed at mode switches; only an invariant over all histories shows the cache is never stale", "anchors": ["src/pygerber/gerber/ast/state_tracking_visitor.py:StateTrackingVisitor._dispatch_d01_handler_in_region", "src/pygerber/gerber/ast/state_tracking_visitor.py:StateTrackingVisitor._dispatch_d01_handler_non_region", "src/pygerber/gerber/ast/state_tracking_visitor.py:StateTrackingVisitor.on_start_region", "src/pygerber/gerber/ast/state_tracking_visitor.py:StateTrackingVisitor.on_end_region"]}
{"id": "C07", "title": "D03 flashes the aperture the selected D-code currently denotes", "statement": "At every point of every command history a D03 calls the flash callback matching the kind of the definition most recently given (AD or AB) for the selected D-code, and passes that definition.", "quantifier": "all histories including redefinition of a selected aperture and AD/AB sharing a D-code", "why_tests_cant": "needs histories that redefine apertures after selection, which ordinary fixtures never contain", "anchors": ["src/pygerber/gerber/ast/state_tracking_visitor.py:StateTrackingVisitor.on_dnn", "src/pygerber/gerber/ast/state_tracking_visitor.py:StateTrackingVisitor.on_d03", "src/pygerber/gerber/ast/state_tracking_visitor.py:State.current_aperture", "src/pygerber/gerber/ast/state_tracking_visitor.py:StateTrackingVisitor.on_ab", "src/pygerber/gerber/ast/state_tracking_visitor.py:StateTrackingVisitor.on_ad"]}
{"id": "C08", "title": "Attribute dictionaries behave like maps and aperture snapshots are isolated", "statement": "After any history the aperture/object/file attribute dictionaries are exactly those obtained by replaying TA/TO/TF as map insertions and TD as deletion of one name or of all aperture and object attributes (never file attributes); the attributes recorded for an aperture are those in force when it was defined and no later command changes them unless it redefines that aperture.", "quantifier": "all histories of attribute and aperture commands", "why_tests_cant": "aliasing of mutable dictionaries only shows up for particular later edits", "anchors": ["src/pygerber/gerber/ast/state_tracking_visitor.py:StateTrackingVisitor.on_ta", "src/pygerber/gerber/ast/state_tracking_visitor.py:StateTrackingVisitor.on_td", "src/pygerber/gerber/ast/state_tracking_visitor.py:StateTrackingVisitor.on_ad", "src/pygerber/gerber/ast/state_tracking_visitor.py:ApertureStorage.per_aperture_attributes"]}
{"id": "C09", "title": "Nothing after M00/M02 is executed", "statement": "With default options (ignore_program_stop=False) the final state and the output do not depend on any command placed after the first M00/M02 of a file; with ignore_program_stop=True the stop commands have no effect at all.", "quantifier": "all files with any prefix before and any suffix after the stop command", "why_tests_cant": "real files end at M02, so the suffix is empty in nearly every test", "anchors": ["src/pygerber/gerber/ast/state_tracking_visitor.py:StateTrackingVisitor.on_exception", "src/pygerber/gerber/ast/state_tracking_visitor.py:StateTrackingVisitor.on_file", "src/pygerber/gerber/ast/ast_visitor.py:AstVisitor.on_file", "src/pygerber/gerber/compiler/__init__.py:compile"]}
{"id": "C10", "title": "Next free aperture code is free", "statement": "After any history that defined at least one aperture or block, get_next_free_aperture_code returns a number larger than every defined D-code; on an empty storage it still returns a usable code.", "quantifier": "all histories", "why_tests_cant": "needs every combination of ADs and ABs, and the empty case", "anchors": ["src/pygerber/gerber/ast/state_tracking_visitor.py:ApertureStorage.get_next_free_aperture_code"]}
{"id": "C11", "title": "Compiled programs are well formed layer programs", "statement": "For every AST that compiles, the RVMC is a sequence of StartLayer, draw commands, EndLayer blocks, never nested, whose last block is the main layer.", "quantifier": "all ASTs", "why_tests_cant": "structure must hold for all programs, not for the sampled boards", "anchors": ["src/pygerber/gerber/compiler/compiler.py:Compiler._convert_buffers_to_rvmc", "src/pygerber/gerber/compiler/compiler.py:Compiler._resolve_buffer_submit_order"]}
{"id": "C12", "title": "Layer submit order defines every layer once, before it is used", "statement": "For every acyclic buffer dependency graph the compiler emits every needed layer exactly once and before every layer that pastes it, and reports CyclicBufferDependencyError exactly for cyclic graphs.", "quantifier": "all finite dependency graphs", "why_tests_cant": "graph shapes (sharing, cycles) are unbounded", "anchors": ["src/pygerber/gerber/compiler/compiler.py:Compiler._resolve_buffer_submit_order"]}
{"id": "C13", "title": "Region contours are connected", "statement": "For every sequence of D01/D02 commands between G36 and G37, each shape produced for the region is a chain: every segment starts where the previous one ended, the chain starts at the point of the preceding D02 (or the point at G36), and every D01 contributes its segment to exactly one shape.", "quantifier": "all operation sequences inside a region", "why_tests_cant": "unbounded sequences mixing lines, arcs, full circles and moves", "anchors": ["src/pygerber/gerber/compiler/compiler.py:Compiler.on_flush_region", "src/pygerber/gerber/compiler/compiler.py:Compiler._on_in_region_draw_arc_mq", "src/pygerber/gerber/compiler/compiler.py:Compiler.on_in_region_draw_line"]}
{"id": "C14", "title": "Step and repeat produces nx*ny translated copies", "statement": "An SR block with counts nx, ny and steps dx, dy emits exactly nx*ny copies of the drawing commands of its body, the copy (i,j) translated by (i*dx, j*dy) and nothing else changed.", "quantifier": "all bodies, counts and steps", "why_tests_cant": "the offset of the copies depends on where the last operation in the body ended, which tests with symmetric boards hide", "anchors": ["src/pygerber/gerber/compiler/compiler.py:Compiler.on_sr", "src/pygerber/gerber/ast/nodes/aperture/SR_open.py:SRopen"]}
{"id": "C15", "title": "Polarity and position of emitted draws follow the state", "statement": "Every shape or paste emitted for a D01/D03/region carries the polarity set by the latest LP, and flashes are placed at the current coordinates.", "quantifier": "all histories", "why_tests_cant": "combination of modal state with every draw kind", "anchors": ["src/pygerber/gerber/compiler/compiler.py:Compiler.on_draw_line", "src/pygerber/gerber/compiler/compiler.py:Compiler._on_flash_aperture", "src/pygerber/gerber/compiler/compiler.py:Compiler.on_flash_block"]}
{"id": "C16", "title": "Flashing uses the mirrored, rotated and scaled aperture as currently defined", "statement": "A flash pastes a layer whose shapes are the shapes of the aperture's current definition transformed by scale, rotation and mirroring of the current LS/LR/LM settings.", "quantifier": "all histories, including redefinition of an aperture after it was flashed", "why_tests_cant": "the transformed copies are cached per (D-code, transform); staleness needs define-flash-redefine-flash histories", "anchors": ["src/pygerber/gerber/compiler/compiler.py:Compiler._get_aperture_buffer", "src/pygerber/gerber/compiler/compiler.py:Compiler._get_buffer_with_transform", "src/pygerber/gerber/compiler/compiler.py:Compiler._apply_transform_to_buffer"]}
{"id": "C17", "title": "Apertures with holes keep the hole inside the shape", "statement": "For every standard aperture definition with a positive hole the emitted hole is a concentric clear circle whose diameter is the requested one clipped to the aperture's outer dimensions; without hole no clear shape is emitted.", "quantifier": "all dimensions", "why_tests_cant": "continuous parameters", "anchors": ["src/pygerber/gerber/compiler/compiler.py:Compiler.on_adc", "src/pygerber/gerber/compiler/compiler.py:Compiler.on_adr", "src/pygerber/gerber/compiler/compiler.py:Compiler.on_ado", "src/pygerber/gerber/compiler/compiler.py:Compiler.on_adp"]}
{"id": "C18", "title": "Arc offsets belong to their own operation", "statement": "The centre of the arc drawn by a D01 is start + (I,J) of the same D01, with missing I or J equal to 0.", "quantifier": "all histories of arcs with missing I/J after earlier arcs", "why_tests_cant": "generators always write both I and J", "anchors": ["src/pygerber/gerber/compiler/compiler.py:Compiler._on_draw_arc_mq", "src/pygerber/gerber/ast/state_tracking_visitor.py:StateTrackingVisitor.coordinate_i"]}
{"id": "C19", "title": "Line width does not depend on where the line is", "statement": "Translating a whole drawing translates its image: the thickness used for a D01 does not change when start and end are moved by the same vector.", "quantifier": "all lines, apertures and translations", "why_tests_cant": "depends on absolute positions", "anchors": ["src/pygerber/gerber/compiler/compiler.py:Compiler._get_line_thickness", "src/pygerber/gerber/compiler/compiler.py:Compiler.on_draw_line"]}
{"id": "C20", "title": "Macro expressions evaluate to their arithmetic value", "statement": "Evaluating any macro expression yields the value of the arithmetic expression it denotes over the variables in scope (left associative subtraction and division), or the documented error for an undefined variable or a division by zero.", "quantifier": "all expression trees and scopes", "why_tests_cant": "trees are unbounded", "anchors": ["src/pygerber/gerber/ast/expression_eval_visitor.py:ExpressionEvalVisitor"]}
{"id": "C21", "title": "Macro variables are scoped to one aperture and assigned sequentially", "statement": "Instantiating a macro with parameters p1..pn evaluates the primitives with $i=pi, each assignment affects only the following primitives of the same instantiation, and two instantiations do not influence each other.", "quantifier": "all macro bodies and parameter lists", "why_tests_cant": "aliasing between instantiations only shows for particular sequences", "anchors": ["src/pygerber/gerber/compiler/compiler.py:Compiler.on_ad_macro", "src/pygerber/gerber/compiler/compiler.py:MacroEvalVisitor.on_assignment"]}
{"id": "C22", "title": "Two instances of one macro never clash", "statement": "A file that defines two apertures from the same macro and flashes both compiles to a program the VM accepts, whatever the time between the definitions.", "quantifier": "all macros, parameter values and timings", "why_tests_cant": "the clash depends on wall-clock seconds and object identities", "anchors": ["src/pygerber/gerber/compiler/compiler.py:MacroEvalVisitor.on_code_7", "src/pygerber/gerber/compiler/compiler.py:Compiler._resolve_buffer_submit_order", "src/pygerber/vm/vm.py:VirtualMachine.on_start_layer"]}
{"id": "C23", "title": "VM layer discipline", "statement": "For every command stream the VM either raises one of its documented errors or ends with an empty layer stack in which every layer started was ended, no layer id was defined twice and every paste referred to a layer finished before.", "quantifier": "all command streams", "why_tests_cant": "streams are unbounded", "anchors": ["src/pygerber/vm/vm.py:VirtualMachine"]}
{"id": "C24", "title": "Deferring a layer does not change what is drawn", "statement": "Running a program whose layers declare no box (deferred layers) issues the same eager drawing calls in the same order, on layers of the box computed from their content, as the same program with these boxes declared up front.", "quantifier": "all well-bracketed programs with any nesting", "why_tests_cant": "arbitrary nesting and interleaving of eager and deferred layers", "anchors": ["src/pygerber/vm/vm.py:VirtualMachine.on_end_layer", "src/pygerber/vm/vm.py:VirtualMachine._calculate_deferred_layer_box"]}
{"id": "C25", "title": "Computed layer boxes are the exact hull", "statement": "The box computed for a deferred layer is the smallest box containing the outer boxes of all shapes and of all pasted layers at their paste positions.", "quantifier": "all command lists", "why_tests_cant": "lists are unbounded", "anchors": ["src/pygerber/vm/vm.py:VirtualMachine._calculate_deferred_layer_box", "src/pygerber/vm/types/box.py:Box"]}
{"id": "C26", "title": "Empty layers are harmless", "statement": "A well-bracketed program stays runnable when an empty layer is inserted anywhere: the commands following it run as if it was not there, and an empty main layer gives an empty result.", "quantifier": "all programs and insertion points", "why_tests_cant": "needs every nesting context", "anchors": ["src/pygerber/vm/vm.py:VirtualMachine.on_end_layer", "src/pygerber/vm/vm.py:VirtualMachine.run"]}
{"id": "C27", "title": "Boxes form a join semilattice compatible with translation", "statement": "Box addition is associative, commutative and idempotent, gives the least box containing both, has the default box as identity, and translating commutes with it; from_vectors gives the least box containing all the given points.", "quantifier": "all boxes, vectors and point lists", "why_tests_cant": "algebraic laws over all numbers", "anchors": ["src/pygerber/vm/types/box.py:Box"]}
{"id": "C28", "title": "Matrix transforms compose and invert", "statement": "Transforming a vector by A@B equals transforming by B and then by A; translate/scale/reflect/rotate matrices act on points as documented, rotations preserve lengths and rotate(a)@rotate(b)=rotate(a+b).", "quantifier": "all matrices built with the constructors and @, all angles and vectors", "why_tests_cant": "laws over the reals", "anchors": ["src/pygerber/vm/types/matrix.py:Matrix3x3", "src/pygerber/vm/types/vector.py:Vector.transform"]}
{"id": "C29", "title": "Angles are in the documented range", "statement": "angle_between and angle_between_cc return the clockwise and counter-clockwise angle in degrees from one vector to the other in [0,360), and sum to 0 modulo 360.", "quantifier": "all pairs of vectors", "why_tests_cant": "boundary directions (equal or opposite vectors)", "anchors": ["src/pygerber/vm/types/vector.py:Vector.angle_between", "src/pygerber/vm/types/vector.py:Vector.angle_between_cc"]}
{"id": "C30", "title": "Shape constructors build closed outlines", "statement": "new_circle, new_rectangle, new_obround, new_line, new_polygon, new_cw_arc, new_ccw_arc and new_connected_points return a chain of segments in which every segment starts where the previous one ends and the last one ends at the start of the first (for connected points up to the final point).", "quantifier": "all parameters in the accepted range", "why_tests_cant": "continuous parameters and degenerate cases", "anchors": ["src/pygerber/vm/commands/shape.py:Shape"]}
{"id": "C31", "title": "Outer boxes contain the outline", "statement": "Every point of every segment (including all points of an arc sweep) lies in the shape's outer_box.", "quantifier": "all shapes", "why_tests_cant": "infinitely many points per arc", "anchors": ["src/pygerber/vm/commands/shape.py:Shape.outer_box", "src/pygerber/vm/commands/shape_segments/arc.py:Arc.outer_box", "src/pygerber/vm/commands/shape_segments/line.py:Line"]}
{"id": "C32", "title": "Transforming a shape transforms its outline", "statement": "For every translation, rotation, uniform scaling and mirroring the transformed shape's segments are the images of the original ones, arcs keep their centre-radius relation and their orientation flips exactly under mirroring.", "quantifier": "all shapes and all similarity transforms", "why_tests_cant": "orientation test depends on the signs of matrix entries over all angles", "anchors": ["src/pygerber/vm/commands/shape_segments/arc.py:Arc.transform", "src/pygerber/vm/commands/shape.py:Shape.transform"]}
{"id": "C33", "title": "Regular polygons have the requested number of vertices", "statement": "new_polygon with n vertices and any base rotation returns a closed outline with n sides, all vertices at distance diameter/2 from the centre.", "quantifier": "all n >= 3, all rotations", "why_tests_cant": "the vertex loop bound interacts with the rotation offset", "anchors": ["src/pygerber/vm/commands/shape.py:Shape.new_polygon", "src/pygerber/gerber/compiler/compiler.py:MacroEvalVisitor.on_code_5"]}
{"id": "C34", "title": "Arc discretisation terminates and ends at the arc's end", "statement": "For every arc both backends generate a finite sequence of points that starts at the arc's start angle, ends at its end angle, is monotone in the sweep direction and has steps not larger than the requested resolution.", "quantifier": "all arcs including full circles and degenerate radii", "why_tests_cant": "termination for all inputs", "anchors": ["src/pygerber/vm/shapely/vm.py:ShapelyVirtualMachine", "src/pygerber/vm/pillow/vm.py:PillowVirtualMachine"]}
{"id": "C35", "title": "Colour hex notation round-trips", "statement": "Color.from_hex(c.to_hex()) == c for all colours; every string of the documented syntax (RRGGBB or RRGGBBAA, hexadecimal digits in any letter case, optionally preceded by #) is accepted with the denoted channels and every other string is rejected.", "quantifier": "all colours and all strings", "why_tests_cant": "16.7M*256 colours and infinitely many strings", "anchors": ["src/pygerber/vm/types/color.py:Color"]}
{"id": "C36", "title": "RVMC builder output is well bracketed", "statement": "Whatever sequence of builder calls is made (including illegal ones that raise), the command list returned by get_rvmc is properly nested, a finished layer receives no further commands and a layer's commands appear between its StartLayer and EndLayer in call order.", "quantifier": "all call sequences", "why_tests_cant": "API call histories are unbounded", "anchors": ["src/pygerber/builder/rvmc.py:RvmcBuilder", "src/pygerber/builder/rvmc.py:LayerBuilder"]}
{"id": "C37", "title": "Programs made with the RVMC builder run", "statement": "Every program obtained from the builder without builder errors is accepted by the VM.", "quantifier": "all call sequences", "why_tests_cant": "API call histories are unbounded", "anchors": ["src/pygerber/builder/rvmc.py:RvmcBuilder.layer", "src/pygerber/vm/vm.py:VirtualMachine.run"]}
{"id": "C38", "title": "Gerber builder output draws exactly what was requested", "statement": "Reading the code returned by get_code with the state tracker yields, in order, exactly the pads, cut-outs, traces and regions added: each with the requested aperture, position, polarity, rotation, mirroring, scale, interpolation mode and end points.", "quantifier": "all sequences of builder calls", "why_tests_cant": "the builder emits only state changes; a wrong shadow state only shows after particular sequences", "anchors": ["src/pygerber/builder/gerber.py:GerberX3Builder", "src/pygerber/gerber/ast/state_tracking_visitor.py:StateTrackingVisitor"]}
{"id": "C39", "title": "Gerber builder identifiers are unique and attributes do not leak", "statement": "All aperture ids and macro names generated by a builder are distinct, start at D10 and every aperture carries exactly the attributes set on its own pad.", "quantifier": "all sequences of builder calls", "why_tests_cant": "API call histories are unbounded", "anchors": ["src/pygerber/builder/gerber.py:PadCreator", "src/pygerber/builder/gerber.py:Pad"]}
{"id": "C40", "title": "Gerber builder coordinates survive", "statement": "Coordinates given to the builder are written so that the state tracker reads back the same value rounded to 6 decimals, or the call that adds the item raises when they need more than 4 integer digits.", "quantifier": "all coordinates", "why_tests_cant": "continuous domain", "anchors": ["src/pygerber/builder/gerber.py:GerberX3Builder.get_code", "src/pygerber/gerber/ast/state_tracking_visitor.py:CoordinateFormat"]}
{"id": "C41", "title": "Macro expressions survive format and parse", "statement": "Formatting a macro expression that came from the parser and parsing it again yields an equal expression.", "quantifier": "all expressions the parser can produce", "why_tests_cant": "operator precedence and associativity interact in unboundedly many trees", "anchors": ["src/pygerber/gerber/formatter/formatter.py:Formatter.on_add", "src/pygerber/gerber/parser/pyparsing/grammar.py:Grammar.expression"]}
{"id": "C42", "title": "Formatting options never change macro values", "statement": "With and without explicit parenthesis the formatted expression parses to an expression with the same value in every scope.", "quantifier": "all expressions, all scopes", "why_tests_cant": "trees and scopes are unbounded", "anchors": ["src/pygerber/gerber/formatter/formatter.py:Formatter.on_parenthesis", "src/pygerber/gerber/formatter/formatter.py:Options.explicit_parenthesis", "src/pygerber/gerber/parser/pyparsing/grammar.py:Grammar.expression"]}
{"id": "C43", "title": "Commands survive format and parse", "statement": "Formatting any file obtained from the parser and parsing the output yields the same list of commands, for any choice of whitespace-related options.", "quantifier": "all files, all option values", "why_tests_cant": "all programs times all option combinations", "anchors": ["src/pygerber/gerber/formatter/formatter.py:Formatter", "src/pygerber/gerber/parser/pyparsing/grammar.py:Grammar"]}
{"id": "C44", "title": "Numbers survive formatting", "statement": "A number written by the formatter is accepted by the grammar and denotes the number rounded to the configured decimals.", "quantifier": "all numbers and all float_decimal_places / trimming options", "why_tests_cant": "exponent notation and trimming only bite for particular magnitudes", "anchors": ["src/pygerber/gerber/formatter/formatter.py:Formatter._fmt_double", "src/pygerber/gerber/formatter/options.py:Options", "src/pygerber/gerber/parser/pyparsing/grammar.py:Grammar.double"]}
{"id": "C45", "title": "Step-and-repeat and polygon headers survive formatting", "statement": "SR and ADP commands with any subset of their optional fields are written so that parsing returns the same fields.", "quantifier": "all subsets of optional fields", "why_tests_cant": "optional-field combinations are rarely present in fixtures", "anchors": ["src/pygerber/gerber/formatter/formatter.py:Formatter.on_sr_open", "src/pygerber/gerber/formatter/formatter.py:Formatter.on_adp"]}
{"id": "C46", "title": "Linter reports exactly the deprecated commands", "statement": "lint with DEP001/DEP002 reports exactly one violation per G54/G55 in the file, in document order with the command's position, regardless of which other rules are active, and linting twice gives the same report.", "quantifier": "all files and rule subsets", "why_tests_cant": "all programs", "anchors": ["src/pygerber/gerber/linter/linter.py:Linter.lint", "src/pygerber/gerber/linter/event_ast_visitor.py:EventAstVisitor", "src/pygerber/gerber/linter/rules/static_rule.py:StaticRule"]}
{"id": "C47", "title": "GRB001 reports only redundant interpolation commands", "statement": "Every G01/G02/G03 reported by GRB001 sets the interpolation mode that is already in effect, so deleting it changes no drawing.", "quantifier": "all files including nested blocks", "why_tests_cant": "needs semantic equivalence for all programs", "anchors": ["src/pygerber/gerber/linter/rules/GRB001.py:GRB001", "src/pygerber/gerber/ast/state_tracking_visitor.py:StateTrackingVisitor.on_g01"]}
{"id": "C48", "title": "Node finder returns the innermost command at a position", "statement": "find_node(position) returns the last command that starts at or before the position in document order (descending into blocks), for every position inside the document.", "quantifier": "all documents and positions", "why_tests_cant": "binary search over all layouts", "anchors": ["src/pygerber/gerber/ast/node_finder.py:NodeFinder"]}
{"id": "C49", "title": "Every file type has a style", "statement": "Rendering a file whose type was given or inferred never fails because the default colour map lacks the type.", "quantifier": "all file types, extensions and FileFunction attributes", "why_tests_cant": "all combinations of inference paths", "anchors": ["src/pygerber/gerber/api/_gerber_file.py:GerberFile._dispatch_style", "src/pygerber/gerber/api/_enums.py:DEFAULT_ALPHA_COLOR_MAP"]}
{"id": "C50", "title": "Composite views align layers", "statement": "In a composite image the pixel of every sub-image is placed so that equal board coordinates coincide (up to the documented truncation) and every sub-image lies inside the composite, whatever mixture of files is given.", "quantifier": "all lists of files with any units and extents", "why_tests_cant": "mixed units and negative coordinates in all combinations", "anchors": ["src/pygerber/gerber/api/_composite_view.py:CompositeView.render_with_pillow", "src/pygerber/gerber/api/_gerber_file.py:ImageSpace"]}
{"id": "C51", "title": "Job file projects contain every layer once and in order", "statement": "to_project puts each listed top/bottom/inner file into the matching view, in stacking order, inner views ordered by layer number, profile files in all views.", "quantifier": "all job files", "why_tests_cant": "any number of layers and file functions", "anchors": ["src/pygerber/gerber/api/_gerber_job_file.py:GerberJobFile.to_project"]}
{"id": "C52", "title": "GerberFile caches are transparent", "statement": "Whatever sequence of option changes and renders is made, each result is what a fresh GerberFile with the same options would give.", "quantifier": "all call sequences", "why_tests_cant": "cache staleness needs particular sequences", "anchors": ["src/pygerber/gerber/api/_gerber_file.py:GerberFile"]}
{"id": "C53", "title": "Language server locks are balanced and deadlock free", "statement": "Under every schedule of concurrent requests, each handler that finishes (normally or with an exception) has released the locks it took, and some handler can always make progress.", "quantifier": "all interleavings of any number of requests", "why_tests_cant": "schedules cannot be enumerated by tests", "anchors": ["src/pygerber/gerber/language_server/_server/document_cache.py:DocumentCache", "src/pygerber/gerber/language_server/_server/documents/document.py:Document", "src/pygerber/gerber/language_server/_server/server.py:get_server"]}
{"id": "C54", "title": "Language server answers come from the latest text", "statement": "Under every schedule of the event loop the requests take effect one at a time in the order in which they start, and every hover and completion answer is the one computed, without caches, from the text most recently opened or changed for its document; documents that are not open have no answers.", "quantifier": "all request sequences, schedules, texts and positions", "why_tests_cant": "caches and interleavings fail only for particular sequences", "anchors": ["src/pygerber/gerber/language_server/_server/server.py:get_server", "src/pygerber/gerber/language_server/_server/documents/gerber.py:GerberDocument"]}
{"id": "C55", "title": "The cached outer box is the box of the shape", "statement": "Whatever sequence of creations, transformations and reads of outer_box is made, every read gives the box of the shape it is read from.", "quantifier": "all programs using shape objects", "why_tests_cant": "staleness needs a particular order of reads and transformations", "anchors": ["src/pygerber/vm/commands/shape.py:Shape.outer_box", "src/pygerber/vm/commands/shape.py:Shape.transform"]}
{"id": "C57", "title": "Pixels lie inside the image", "statement": "Every point a backend generates for a shape lies in the shape's outer_box, and every pixel pillow draws for it lies between 0 and the image size whenever the layer's box contains the shape's box; each pixel is the cell of the resolution grid containing its point.", "quantifier": "all shapes, layer boxes and resolutions", "why_tests_cant": "arcs and boxes range over the reals", "anchors": ["src/pygerber/vm/pillow/vm.py:PillowEagerLayer", "src/pygerber/vm/commands/shape.py:Shape.outer_box"]}
{"id": "C58", "title": "Shape constructors draw the documented outline", "statement": "The outline (segments and closing lines) of new_circle, new_rectangle, new_obround, new_line, new_cw_arc, new_ccw_arc and new_connected_points is exactly the boundary of the documented figure: circle, axis-parallel rectangle, stadium, band of the given width around the line, ring sector of the given width, closed path.", "quantifier": "all parameters in the accepted range", "why_tests_cant": "equality of point sets", "anchors": ["src/pygerber/vm/commands/shape.py:Shape"]}
{"id": "C59", "title": "Macro primitives paint the documented figures", "statement": "Every macro primitive (circle, vector line, centre line, lower-left line, outline, polygon, moire, thermal) appends commands whose outlines are exactly those the Gerber specification gives for its evaluated parameters, rotated about the macro origin, with the polarity of its exposure.", "quantifier": "all primitives, parameter expressions and scopes", "why_tests_cant": "infinitely many parameter values; equality of point sets", "anchors": ["src/pygerber/gerber/compiler/compiler.py:MacroEvalVisitor", "src/pygerber/vm/commands/shape.py:Shape"]}
{"id": "C60", "title": "HSV colours", "statement": "Color.from_hsv(hue, saturation, value) has for every primary colour the channel value*(1 - saturation*(1 - strength)) as a byte (nearest, ties to even), where strength is 1 within 60 degrees of the hue of the primary, falls linearly to 0 at 120 degrees and is 0 beyond, for every integer hue (periodic) and all saturations and values in 0..100.", "quantifier": "all integer hues, rational saturations and values in range", "why_tests_cant": "continuous parameters", "anchors": ["src/pygerber/vm/types/color.py:Color.from_hsv"]}
{"id": "C61", "title": "The backends paint the image the commands describe", "statement": "The result of a run is the image of the main layer: a point (pixel) is dark exactly when some dark shape or paste of the layer covers it and no later clear one does; a shape covers the filling of its outline, a paste covers the dark points of the source layer moved by the paste centre minus the source origin.", "quantifier": "all command streams that run, all fillings", "why_tests_cant": "images are infinite point sets; nesting of layers is unbounded", "anchors": ["src/pygerber/vm/shapely/vm.py:ShapelyVirtualMachine", "src/pygerber/vm/pillow/vm.py:PillowVirtualMachine"]}
{"id": "C62", "title": "Pasting shifts pixels exactly", "statement": "In the pillow backend every pixel of a pasted layer comes to the pixel its point would have had if it had been drawn directly, and no part of a pasted image is cut off on layers without a declared box.", "quantifier": "all layer boxes, centres, resolutions and points", "why_tests_cant": "rounding errors depend on real-valued positions", "anchors": ["src/pygerber/vm/pillow/vm.py:PillowVirtualMachine.on_paste_layer_eager"]}
{"id": "C63", "title": "The formatter spells attribute names as the specification does", "statement": "Every attribute is written as %, its command (TA, TF, TO), exactly the name of the format specification (or the user's name), and its values after a comma.", "quantifier": "all attributes and formatter options", "why_tests_cant": "one misspelt name out of many goes unnoticed because the parser ignores case", "anchors": ["src/pygerber/gerber/formatter/formatter.py:Formatter"]}
{"id": "C56", "title": "The image of a compiled file is the image of its layers", "statement": "For every file, if its compiled program runs then there is exactly one image of the layers obeying the dark/clear rules, and the rendered result (shapely: point set, pillow: pixels) is the image of the main layer; every compiled program runs.", "quantifier": "all files, clocks, orders of set iteration, fillings", "why_tests_cant": "images are infinite point sets; files and layers unbounded", "anchors": ["src/pygerber/gerber/compiler/compiler.py:Compiler", "src/pygerber/vm/shapely/vm.py:ShapelyVirtualMachine", "src/pygerber/vm/pillow/vm.py:PillowVirtualMachine"]}
{"id": "C64", "title": "The rendered image is the picture the Gerber file describes", "statement": "The rendered image of a file is obtained by going through the executed commands in order: D03 paints the figure of the selected aperture, transformed as set, at the current point; D01 paints a stroke of the selected aperture from the previous to the current point (straight or around the given centre); G37 paints the region of its contours; dark or clear as set by LP. An AB block paints nothing, flashing its code paints the objects of its commands at the current point; an SR block paints the objects of its commands again for every repetition, moved by the steps. A point is dark exactly when a dark object covers it and no later clear one does.", "quantifier": "all files", "why_tests_cant": "end to end statement about unbounded files and real-valued images", "anchors": ["src/pygerber/gerber/compiler/compiler.py:Compiler", "src/pygerber/vm/shapely/vm.py:ShapelyVirtualMachine", "src/pygerber/gerber/ast/state_tracking_visitor.py:StateTrackingVisitor"]}
{"id": "C65", "title": "Strokes are as wide as the aperture across the direction of the stroke", "statement": "The width of a stroke is the diameter of a circle or polygon, and for rectangles and obrounds the extent of the aperture across the direction of the stroke (in any case between the shorter and the longer side).", "quantifier": "all apertures, start and end points", "why_tests_cant": "continuous directions", "anchors": ["src/pygerber/gerber/compiler/compiler.py:Compiler._get_line_thickness"]}
{"id": "C66", "title": "The resilient parser accepts every text and agrees with the strict parser", "statement": "The error resilient parser answers every text with a list of nodes; where the strict parser accepts, the nodes are the same; otherwise the text is cut into commands and the unreadable rests of lines. An unreadable line costs that line and nothing around it.", "quantifier": "all texts", "why_tests_cant": "the interesting inputs are the malformed ones, of which there are infinitely many", "anchors": ["src/pygerber/gerber/parser/pyparsing/grammar.py:Grammar.build_resilient", "src/pygerber/gerber/parser/pyparsing/parser.py:Parser.parse"]}
{"id": "C67", "title": "A hover shows the state, the points and the picture of its command", "statement": "The state a hover shows is the one the commands before it lead to; the start and end points shown for a stroke are those of the stroke; the illustration draws what the command adds to its file.", "quantifier": "all files, all D01 and D03 commands, all positions", "why_tests_cant": "the state at a command depends on everything before it; the illustration is built from all of the state", "anchors": ["src/pygerber/gerber/language_server/_server/hover/gerber.py:GerberHoverCreator.create_hover_markdown", "src/pygerber/gerber/language_server/_server/hover/gerber.py:LimitedStateTrackingVisitor", "src/pygerber/gerber/language_server/_server/hover/gerber.py:GerberHoverCreator._visualize_draw_op"]}
{"id": "C68", "title": "The checksum check looks at everything before the attribute", "statement": "Checking a .MD5 attribute hashes the text before the attribute without line ends, so it answers whether the given checksum is that of the file.", "quantifier": "all texts, all positions of the attribute, any digest function", "why_tests_cant": "the only test uses a file with the attribute on its own line and no tabs", "anchors": ["src/pygerber/gerber/ast/nodes/attribute/TF.py:TF_MD5.check_source_hash"]}
{"id": "C69", "title": "Lines and columns identify places in the text", "statement": "The line and column of an offset are those of a reader of the text, different offsets have different positions in the same order, the comparison operators of positions agree with that order, and positions exchanged with an editor mean the same place.", "quantifier": "all texts and offsets, all pairs of positions", "why_tests_cant": "an order relates all pairs of positions, and texts are unbounded", "anchors": ["src/pygerber/common/position.py:Position", "src/pygerber/gerber/ast/nodes/base.py:SourceInfo", "src/pygerber/gerber/ast/node_finder.py:ZeroBasedPosition.to_one_based"]}
{"id": "C70", "title": "Formatting a file leaves the program it compiles to", "statement": "For every text the parser accepts and every choice of formatter options, compiling the formatted text gives the same sequence of drawing commands as compiling the original, up to the identities of objects.", "quantifier": "all texts, all formatter options, all readers and writers of numbers under which the values of the file survive", "why_tests_cant": "texts, nestings and option values are unbounded and combine", "anchors": ["src/pygerber/gerber/formatter/formatter.py:Formatter.format", "src/pygerber/gerber/parser/pyparsing/parser.py:Parser.parse", "src/pygerber/gerber/compiler/compiler.py:Compiler.compile"]}
{"id": "C71", "title": "An attribute can be deleted by the name it was set with", "statement": "A TA or TO command followed by a TD command naming the same attribute leaves the attribute dictionaries as the TD command alone would have left them.", "quantifier": "all attribute commands, all states", "why_tests_cant": "it concerns every attribute in every state", "anchors": ["src/pygerber/gerber/ast/nodes/attribute/TO.py", "src/pygerber/gerber/ast/nodes/attribute/TA.py", "src/pygerber/gerber/ast/state_tracking_visitor.py:StateTrackingVisitor.on_td"]}
{"id": "C72", "title": "The parser says where every command is", "statement": "Every node of a parsed file carries an offset and a length. The nodes follow each other in the text with white space between them only; at the offset of a node, also of those inside of blocks and macros, stands its text, which ends at offset plus length; the offsets do not depend on how the grammar is organised: there is one way to lay the commands out. Recording them changes neither the commands read nor the errors.", "quantifier": "all texts, strict and error resilient parser", "why_tests_cant": "offsets are right or wrong for each of infinitely many texts; the searches of the language server (node under the cursor, state before a command) rely on them for every file", "anchors": ["src/pygerber/gerber/parser/pyparsing/grammar.py:Grammar.make_unpack_callback", "src/pygerber/gerber/parser/pyparsing/grammar.py:Grammar.build", "src/pygerber/gerber/ast/nodes/base.py:SourceInfo"]}
{"id": "C73", "title": "The linter's report of a text says where the offending commands are", "statement": "Linting a text with a set of rules reports, for each rule asked for, exactly the G54, the G55 and the repeated G01, G02 and G03 commands in the order of the text, also those in blocks, each with offset, end, line and column of its node (C72), that is of the place in the tab-expanded text where the command begins; nothing else is reported; it fails only if the text does not parse or a rule is unknown.", "quantifier": "all texts, all lists of distinct rules", "why_tests_cant": "it ties together parser, source locations, event visitor and rules for every text", "anchors": ["src/pygerber/console/gerber.py:lint", "src/pygerber/gerber/linter/__init__.py:lint", "src/pygerber/gerber/linter/rules/rule.py:Rule.report_violation", "src/pygerber/gerber/parser/pyparsing/grammar.py:Grammar.make_unpack_callback"]}
{"id": "C74", "title": "What the command line does to files", "statement": "convert writes into the output file the picture of the source file, drawn with the style the options ask for (a preset in any case, custom colours, or the style of the type that is named, said by the extension or said by the file), and changes no other file; if it fails no file is changed; merge-convert does the same with the pictures of all sources, first to last; format replaces the output by the formatted source and changes nothing when it fails; lint prints all violations of all files in order; lists of rules are split at commas.", "quantifier": "all file systems, all arguments, every library behind it", "why_tests_cant": "arguments, file contents and failure points are unbounded; tests try a few combinations", "anchors": ["src/pygerber/console/gerber.py:png", "src/pygerber/console/gerber.py:_sanitize_style", "src/pygerber/console/gerber.py:svg", "src/pygerber/console/gerber.py:format_cmd", "src/pygerber/console/gerber.py:merge_convert_png", "src/pygerber/console/gerber.py:lint", "src/pygerber/vm/types/style.py:Style"]}
{"id": "C75", "title": "Colours of rendered images", "statement": "A pixel of the image of a file has the foreground colour where the main layer is dark and the background colour elsewhere; a composite view shows at each pixel the topmost file that shows something there, in its colour, and nothing where no file shows anything.", "quantifier": "all files that compile and render, all colours, all lists of files", "why_tests_cant": "pictures and stacks of layers are unbounded; tests compare a few images byte by byte", "anchors": ["src/pygerber/vm/pillow/vm.py:PillowResult", "src/pygerber/gerber/api/_composite_view.py:render_with_pillow"]}
{"id": "C76", "title": "Text written by a builder", "statement": "The text written by GerberCode.dumps is accepted by the parser; what is read are the commands the builder collected, and visiting them draws every pad, trace and region that was asked for, with its shape, place and modes.", "quantifier": "all sequences of calls of a GerberX3Builder", "why_tests_cant": "programs using the builder are unbounded; tests write a few boards and compare texts", "anchors": ["src/pygerber/builder/gerber.py:GerberCode.dumps", "src/pygerber/builder/gerber.py:get_code", "src/pygerber/gerber/formatter/formatter.py:Formatter", "src/pygerber/gerber/parser/pyparsing/grammar.py:Grammar"]}
{"id": "C77", "title": "SVG files", "statement": "Saving a rendered file as SVG writes a document that shows exactly the points of the shape, upright, unscaled and without margin or loss, in the foreground colour; paths, buffers and files are accepted as destinations.", "quantifier": "all geometries of polygons with holes, all colours, all texts of numbers", "why_tests_cant": "shapes are unbounded; tests look at a few files", "anchors": ["src/pygerber/vm/shapely/vm.py:_dump_svg", "src/pygerber/vm/shapely/vm.py:save_svg", "src/pygerber/vm/shapely/vm.py:save"]}
{"id": "C78", "title": "Syntax highlighting", "statement": "The lexer splits a text without loss, and highlights the axes, numbers, operations, other codes and names of a file for what they are; valid files contain no error tokens.", "quantifier": "all texts; all sequences of operations and codes, all numbers of leading zeros", "why_tests_cant": "texts are unbounded, and which rule applies depends on the characters before and after a position", "anchors": ["src/pygerber/gerber/pygments.py:GerberLexer"]}
{"id": "C79", "title": "Double precision", "statement": "Rounding numbers to doubles changes no coordinate when it is packed again, and formatting a file of doubles and parsing the result gives the same doubles.", "quantifier": "all coordinate formats, all packed coordinates, all rationals, all doubles, all files and whitespace options", "why_tests_cant": "there are 2^64 doubles; an error of one unit in the last place shows for few of them", "anchors": ["src/pygerber/gerber/ast/state_tracking_visitor.py:CoordinateFormat", "src/pygerber/gerber/formatter/formatter.py:Formatter._fmt_double"]}
{"id": "C80", "title": "From builder to picture", "statement": "Rendering the text written by a builder gives the picture of the pads, traces and regions that were asked for: each a union of figures given by equations, in the order asked for, at the places asked for rounded to six decimals, pads scaled, turned and mirrored and possibly subtracted.", "quantifier": "all sequences of builder calls, all identities and attribute texts, all fillings of outlines and hash orders", "why_tests_cant": "composes builder, formatter, parser, visitor, compiler and renderer; tests compare images of a few boards", "anchors": ["src/pygerber/builder/gerber.py:GerberX3Builder", "src/pygerber/builder/gerber.py:GerberCode.dumps", "src/pygerber/gerber/compiler/compiler.py:Compiler", "src/pygerber/vm/shapely/vm.py:ShapelyVirtualMachine"]}
{"id": "C81", "title": "Indentation of formatted files", "statement": "Every command of a formatted file is written on lines that begin with the indents of the blocks around it, blocks are closed at the indentation they were opened with, macros are split as asked for, and codes share lines only when kept together.", "quantifier": "all files of parsed commands with any nesting, all option values", "why_tests_cant": "the indentation is state that is pushed and popped by texts; tests format flat files or one level with one width", "anchors": ["src/pygerber/gerber/formatter/formatter.py:_decrease_base_indent", "src/pygerber/gerber/formatter/formatter.py:Formatter", "src/pygerber/gerber/formatter/options.py:Options"]}
{"id": "C82", "title": "Which files are accepted", "statement": "The compiler makes a program of a file exactly when every executed command is acceptable after the commands executed before it (coordinates fit a format, apertures are defined and selected, drawing tools have a width, macros have values for their expressions and room for their figures, no region is closed twice) and every repetition carried out has positive counts and decimal distances.", "quantifier": "all files, all macro bodies and parameters, all clocks without repeated readings, all set orders", "why_tests_cant": "each error needs its own file and the absence of other errors cannot be tested; the condition refers to the whole prefix of a file", "anchors": ["src/pygerber/gerber/compiler/compiler.py:Compiler", "src/pygerber/gerber/compiler/compiler.py:MacroEvalVisitor", "src/pygerber/gerber/ast/state_tracking_visitor.py:StateTrackingVisitor", "src/pygerber/gerber/compiler/__init__.py:compile"]}
{"id": "C83", "title": "Files of builders compile", "statement": "The text written by a builder is accepted by the compiler when the polygons asked for have three vertices or more and thermals with a ring have a hole; any other numbers may be zero or negative.", "quantifier": "all sequences of builder calls, all identities and attribute texts, all set orders, all clocks without repeated readings", "why_tests_cant": "every call adds commands that can fail at any later point of the file; tests compile a few builders' files", "anchors": ["src/pygerber/builder/gerber.py:GerberX3Builder", "src/pygerber/builder/gerber.py:GerberCode.dumps", "src/pygerber/gerber/compiler/compiler.py:Compiler", "src/pygerber/gerber/compiler/__init__.py:compile"]}
{"id": "C84", "title": "Listeners of a visit", "statement": "Visiting a file tells the listeners of every node's class, nodes before their parts and in the order of the text, and of the file first and last even after an exception; every node of the tree is visited, including those inside of macros; a listener should be told once about every node.", "quantifier": "all files, all nesting, all macro bodies, all listeners with any state and exceptions, all orders of registration", "why_tests_cant": "the tree is unbounded and listeners can raise anywhere; the tests register listeners for a few classes", "anchors": ["src/pygerber/gerber/linter/event_ast_visitor.py:EventAstVisitor", "src/pygerber/gerber/ast/ast_visitor.py:AstVisitor", "src/pygerber/gerber/ast/nodes/base.py:Node"]}
{"id": "C85", "title": "Which files can be rendered", "statement": "A compiled file is rendered exactly when no layer of its program is empty and every shape can be painted: something is drawn, dark or clear (a flash, a stroke that is not an ignored single quadrant arc, a contour that is closed by D02 or G37), and every flashed aperture has a figure (a macro leaves something besides comments; a thermal has a ring wider than its gaps, a moire a cross or a ring).", "quantifier": "all compiled files, all commands and macros, all real dimensions, all backends", "why_tests_cant": "emptiness of a nested layer depends on real arithmetic inside of macros and on which commands follow a stroke; tests render files that draw something", "anchors": ["src/pygerber/vm/vm.py:VirtualMachine", "src/pygerber/vm/shapely/vm.py", "src/pygerber/gerber/compiler/compiler.py:Compiler", "src/pygerber/vm/types/errors.py"]}
{"id": "C86", "title": "Pixels show the picture", "statement": "Every pixel of the pillow image has the colour of all the points it stands for, unless the edge of a shape is close: nearer than the error of filling a polygon, plus one pixel for the pixel itself and one for every level of pasted layers (three pixels in all for files whose codes are not reused). Where no edge is close, pillow and shapely show the same.", "quantifier": "all compiled files, all runs, all resolutions, all pixels, all nestings of layers, any polygon filling that is right away from edges", "why_tests_cant": "every pasted layer is rounded to pixels on its own, and the errors add up; tests compare with stored images that have the same errors", "anchors": ["src/pygerber/vm/pillow/vm.py:PillowVirtualMachine", "src/pygerber/vm/shapely/vm.py:ShapelyVirtualMachine", "src/pygerber/vm/vm.py:VirtualMachine"]}
{"id": "C87", "title": "Formatting a formatted file changes nothing", "statement": "Parsing the output of the formatter and formatting it again with the same options gives the same text. With a number of decimals the numbers come back as the nearest multiples, the even one of two, and everything else as it was; the three presets of the package are cases of this.", "quantifier": "for all files the parser yields and all options whose texts are whitespace; for the exact statement all numbers of decimals of at least one", "why_tests_cant": "needs every command, nesting and option value at once, and numbers with more decimals than are written", "anchors": ["src/pygerber/gerber/formatter/formatter.py:339-380", "src/pygerber/gerber/formatter/presets.py:18-78", "src/pygerber/gerber/formatter/options.py:22-200"]}
{"id": "C88", "title": "Drawings carry the attributes in force", "statement": "With metadata asked for, every drawing a command adds carries exactly the object attributes in force, the layer of an aperture exactly the aperture attributes in force when it is defined, the program the file attributes; wherever a drawing is copied, its metadata are the attributes of some moment. Asking for metadata changes nothing else in the program, nor whether it fails.", "quantifier": "for all files, nestings, attribute commands, clocks and set orders", "why_tests_cant": "needs every attribute history together with flashes, copies under transformations, repeats and macros", "anchors": ["src/pygerber/gerber/compiler/compiler.py:113-119,254-259,396-401,605-631,793-809"]}
{"id": "C89", "title": "Files are read piece by piece", "statement": "Without strict the parser reads the longest beginning of the text that is a file, exactly as the strict parser reads it, and nothing only if no beginning is a file. A text behind a file is read as if it stood alone, unless a tab in it changes width, and fails as if it stood alone.", "quantifier": "for all texts, all files, nested blocks and macros, number readers", "why_tests_cant": "needs every split of every text, with alternatives that are tried in order and repetitions that take as much as they can", "anchors": ["src/pygerber/gerber/parser/__init__.py:24-74", "src/pygerber/gerber/parser/pyparsing/parser.py:29-33", "src/pygerber/gerber/parser/pyparsing/grammar.py:189-222,260-272,360-497"]}
{"id": "C90", "title": "A job file is read as its layout says", "statement": "A job file is read exactly if it has the required entries with values of the right kind; keys the layout does not know and the order of keys make no difference; the files of the project are those listed, in order, next to the job file. Known keys only are kept, although the classes ask to keep all, and a path given to to_project is never used.", "quantifier": "for all JSON values and paths", "why_tests_cant": "there are infinitely many documents that miss an entry or have one of the wrong kind somewhere", "anchors": ["src/pygerber/gerber/api/_gerber_job_file.py:19-150"]}
{"id": "C91", "title": "Hover texts show attributes, apertures and the state", "statement": "The hover text of a drawing command shows its points and the aperture, modes, polarity and transformation it is carried out with, and states that differ in these are shown differently. It lists the object attributes in effect and those the aperture was defined with. A list of attributes has a heading and then one line for each attribute, in order. The line shows the name and every value of the attribute between backquotes. Attributes of a file that differ are shown differently, whatever characters their fields hold. A definition of an aperture is shown with its template and all its numbers, a circle or vector line of a macro with all its expressions. Exceptions: flash texts show the text only, a pin without a function looks like one with the function None, manufacturers are called suppliers, and values with backquotes or line ends break out of their places.", "quantifier": "for all attributes the parser yields, all aperture templates, all texts of numbers", "why_tests_cant": "needs all pairs of attributes and all field texts, among them ones that imitate the markup", "anchors": ["src/pygerber/gerber/language_server/_server/hover/gerber.py:111-258,286-299,307-406,488-547,656-796"]}
{"id": "C92", "title": "Completions offer the apertures of the file and commands that mean what they say", "statement": "The apertures offered are exactly those the file defines, each with its latest definition; the D code offered for a new aperture is one no aperture of the file has; whatever is offered for insertion, once filled in, is read as the command it is offered as. Exceptions: a file without apertures gets no offers for extended commands, some G codes lack their asterisk, extended commands their closing percent sign, and what follows a stop command is not seen.", "quantifier": "for all files and states, all values filled in", "why_tests_cant": "which apertures exist depends on the whole file; infinitely many values to fill in", "anchors": ["src/pygerber/gerber/language_server/_server/documents/gerber.py:130-347", "src/pygerber/gerber/ast/state_tracking_visitor.py:361-369"]}
