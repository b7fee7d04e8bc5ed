# Design

Target: the `pygerber` sources in `/repo` (read only, never run). All theorems are
about the Gallina model in `rocq/theories`; the link to the Python code is the
function by function reading cited in the comment above each definition.

## Conventions

* `result A` = `Ok a | Err e`: Python exceptions are values of a small error type.
* Numbers. Python floats are replaced in one of three ways, always said in the file:
  1. *structural* files are parametric in a law-free numeric structure `Num K`
     (only the operations the code uses, no laws assumed), so their theorems hold for
     every interpretation of the numbers, IEEE doubles included;
  2. *exact* files use `Z`/`Q` (decimal notation, boxes, coordinate formats);
  3. *trigonometric* files use the real numbers `R` of the standard library.
  Rounding errors of IEEE arithmetic are not modelled by 2 and 3, except that `FloatModel`
  models the rounding done when numbers are read and written (C79).
* Dictionaries are functional association maps with insert/remove, loops are folds or
  structural recursion; unbounded recursion carries fuel with an explicit
  out-of-fuel error.
* `XModel.v` contains definitions only, `XProofs.v` lemmas, `XProps.v` only the
  property theorems (closed by `exact`), `Print Assumptions` and a non-vacuity
  `Example` for each.
* `..._refuted` theorems exhibit a witness for which the faithful model violates the
  property; `..._partial` theorems prove a weaker statement (what is missing is said
  beside them).

## Plan per property

| Id | Model | Proof |
|----|-------|-------|
| C01 | `CoordModel`: pack/unpack on digit strings, value = integer multiple of 10^-d | round-trip law by digit list lemmas |
| C02 | same | closed form of unpack, exact error conditions |
| C03 | same | refuted for decimal = 0 and integer = 0; holds otherwise |
| C04 | `StateModel`: State, StateTrackingVisitor as step function | refinement to "last setter" spec by induction on the history |
| C05 | same | refinement to per-axis last coordinate |
| C06 | same, cached handler explicit | invariant: cached handler = table(mode, quadrant, region) |
| C07 | same | refuted (redefinition after selection; AD shadows later AB); partial without redefinition |
| C08 | same | refinement to finite maps; frame lemma for snapshots |
| C09 | same, exceptions and on_exception | refuted: the flag is inverted; both directions characterised; `StopBlock`: after a stop inside of a block what the compiler has for the program stays as it was before the block (invariant of the rest of the walk), and both programs are put together alike |
| C10 | same | maximum property; refuted for the empty storage |
| C11 | `CompilerModel` | structural lemma on the emission loop |
| C12 | same, DFS with fuel | refuted (sharing, cycles), proved for tree shaped graphs |
| C13 | same | invariant on contour buffer; the outline is spelled out stroke by stroke, with arcs centred at their start plus the last I and J read |
| C14 | same | refuted (extra offset), exact characterisation of the emitted copies |
| C15 | same | step lemma for every draw kind; refuted for block flashes |
| C16 | same | refuted (stale cache), proved without redefinition, if the transformations in use have different texts; the macros are those defined before the aperture; directions of arcs over the reals against the turn of three points; `StaleSpec` (pieces of walks, the layers shown by a layer): two flashes of a code with the same transformation show the same layers, unchanged, by an invariant of all steps (copies paste only copies, copies stay); exactly what is shown after redefinitions: copies of a code come only from flashes of it, the layers of the latest definition and their thermals stay, so the first flash copies the latest definition |
| C17 | same | case analysis |
| C18 | same | refuted, exact characterisation |
| C19 | same with R | refuted |
| C20 | `ExprModel` over Q | equality with a denotational semantics |
| C21 | `CompilerModel` macro evaluation | sequential semantics, isolation |
| C22 | same with explicit clock/identity oracle | refuted; proved for distinct stamps |
| C23 | `VmModel` | invariant over command streams |
| C24 | same | simulation between deferred and eager run |
| C25 | same, boxes over Q with infinities | least upper bound |
| C26 | same | refuted |
| C27 | `BoxModel` | lattice laws |
| C28 | `GeomModel` over R | ring and trigonometric identities against `GeoSpec` (plane rotations, similarities) |
| C29 | `GeomModel` over R | `turns`: the angle is the one turning one vector into the direction of the other; refuted at equal directions (360) |
| C30 | `GeomModel` | per constructor, structural, for every `Num`; refuted for lines and arcs (no caps) |
| C31 | `GeomModel`, outline as point set over R | an arc point lies in the box of the circle; refuted for full counter-clockwise turns |
| C32 | same | point sets commute with similarities; refuted at exactly 90 degrees |
| C33 | same | loop invariant of the vertex loop; refuted for positive rotations |
| C34 | `ArcModel` (both backends) | the generated angles are an arithmetic sequence up to the sweep; fuel bound; refuted for degenerate arcs and for the resolution |
| C35 | `ColorModel` | hex-digit lemmas; refuted for a trailing newline |
| C36 | `RvmcModel`: objects in a heap, entering and leaving `with` blocks as separate calls | heap invariant: every live layer holds its `contents` of the history; refuted for explicit `finalize` |
| C37 | same + `VmModel` | simulation: for nested `with` blocks the program plus the open layers is the stream of the calls, which keeps the rules of C23; each rule refuted when left out |
| C38 | `GbModel` + `StateModel` | simulation: the shadow state of the builder agrees with the state of a reader of the code so far; the drawing asked for is told from the calls alone (`GbSpec`); refuted for modes after regions, after coordinate errors, for reused regions |
| C39 | same | counters equal list lengths; each returned pad owns its aperture; refuted for reserved names |
| C40 | same + `CoordModel` | acceptance is a bound on the value; accepted values are read back rounded |
| C41 | `PegModel` (pyparsing combinators), `GramModel` (expression levels), `FmtModel` | the parser yields expressions of the `shape` of each precedence level; every such expression reads back, by structural induction; refuted for numbers written with an exponent |
| C42 | same + `ExprSpec` | the explicit form is the plain form of another expression with the same meaning; refuted (`-+$1`) |
| C43 | `GramModel` (all commands), `FmtModel` | the parser yields well-formed commands (`GramWf`); each is written as pieces separated by whitespace (`GramPieces`) that read back (`GramRead`, `GramReadAttr`, `GramMacroRt`); induction over the nesting and the list (`GramRt`). `GramFileSpec` says which values survive, `GramTidy` what the non-whitespace options do; exact numbers in `GramExact`; explicit parentheses are the plain form of another file (`GramExplFile`, `LinkProps`); refuted for the values left out |
| C44 | `NumTextModel` over Q | the text in parts and its value; divisors of powers of ten for shortest digits; refuted (exponent, no decimals, trimming always on) |
| C45 | `GramModel`, `FmtModel` | case analysis on the fields present; refuted (`SRX2Y3`, hole without rotation) |
| C46 | `LinterModel` (visitor events, listener table, rule objects, `lint`) | running all rules at once projects to running each alone (`run_spec`); the events of a tree are its commands in document order, by structural induction; resetting forgets the previous run |
| C47 | same + `StateModel` | the report is exactly the repeated interpolation commands; invariant tying the linter's last command to the tracker's mode and cached handler along the traversal, for every subclass (hooks); refuted when a program stop inside a step and repeat block skips commands the linter has seen |
| C48 | `FinderModel` (`_bin_search`, block callbacks, `on_file`) | induction on the size of the searched tree: the search reaches the last command that started and answers `None` exactly when some command on the way starts in a later column; refuted for indented commands, single block files and positions before the first command |
| C49 | `ApiModel` (type enumeration, inference, `_dispatch_style`, the colour maps) | case analysis over types, a relation for what an extension says, and the cache invariant of C52; refuted for DRILLMAP |
| C50 | `CompositeModel` over Q (image space, raster size, pixel arithmetic, pasting) | bounds and monotonicity of truncation; refuted for inches, mixed units, an empty view and by one pixel |
| C51 | `JobModel` (`to_project`) | invariant of the loop: each map holds the last entry of each type; sorting lemmas; refuted from ten layers on and for repeated or other types |
| C52 | `ApiModel` (`GerberFile` with its caches, over an arbitrary library) | invariant: caches and inferred type agree with the settings; every method then computes a function of the settings; refuted when parser options change after the type was inferred |
| C53 | `LockModel` (handlers as programs with `try`/`with`, thread and async locks, an event loop) | a predicate transformer `safe` computes which locks a handler holds at each point; an invariant ties it to the locks; lock order (cache before document) and a size measure give progress and termination |
| C54 | `LockModel`, `LsModel` (`GerberDocument` with its caches) | each handler runs to its end in the loop; its run is computed symbolically and equals one step of the function `serve`; documents agree with their text |
| C55 | `CacheModel` (shape objects with their dictionary entry) | invariant over programs of creations, reads and transformations; refuted when a read comes before a transformation |
| C57 | `ArcModel` (points, pixels) | arc points are on the arc, hence in the box (full counter-clockwise turns are drawn as one point); truncation bounds; refuted for arcs with two radii |
| C58 | `GeomModel` over R | outline as point set equals the figure of `GeoSpec` |
| C59 | `CompilerModel` macro primitives over R | evaluated parameters give the figures of `FigSpec`, turned; refuted for polygons and crowded moires |
| C60 | `ColorModel` over Q | case analysis on the sextant of the hue |
| C61 | `PaintModel` (what shapely and pillow keep for a layer) over the drawing log of `VmModel` | invariant: the canvas of a layer shows the points some dark call covers and no later clear call does; sources of pastes are finished, so the image is the unique solution of its description |
| C62 | `PaintModel`, `ArcModel` over R | bounds for truncation; refuted for the exact pixel |
| C63 | `FmtModel` attributes, `LinkModel` names of nodes | case analysis; refuted for the component library name and the manufacturer part number |
| C56 | the compiler and virtual machine models together; `RenderSpec` | order of emitted layers, C23 and C61 composed; refuted for files without drawings |
| C64 | the same; `RenderSpec` (`picture`: a fold over the executed commands) | induction over the file: state, table of buffers and picture in step; flashes by C12/C16, strokes by C19, images by C56; with redefinitions (`RedefSpec`): the state after the first flash with a transformation, whose copies stay to the end; with AB and SR: `BlockSpec` (pictures as trees, a relation over nested nodes) and a simulation between pictures and layers kept by every step, in which layers may only be copied, shifted and appended to |
| C65 | `line_thickness` over R | trigonometric identities; refuted for the extent across the stroke |
| C66 | the resilient grammar over the strict one (`ResModel`) | every parser returns a tail of its input (`tails`, induction over the grammar); simulation of the strict loop by the resilient one; with the locality of C89 an unreadable line costs that line only; refuted inside blocks and for blank texts and invalid attribute values |
| C67 | hover state, points shown and illustration of the language server (`HoverModel`) | the limited walk is a walk of a prefix; the state does not depend on callbacks that do not fail (simulation); running the illustration re-creates the parts of the state a command depends on; refuted for counterclockwise arcs, clear polarity, block apertures, blocks and arc centres |
| C68 | `check_source_hash` and tab expansion (`HashModel`), digest as parameter | tab expansion as a relation on lines; the text to be signed as a relation; equality exactly when the character before the attribute is a line end; refuted on one line with another command, at the start of the file and with tabs |
| C69 | `Position`, `SourceInfo` lines and columns, `pyparsing.lineno` and `col` (`PosModel`) | decomposition of the text before an offset into whole lines and a rest; monotonicity; refuted for `<=`, `>=`, `!=` and texts with tabs |
| C70 | parser, formatter and compiler together; `LinkModel` relates the two syntax trees | round trip (C43) up to dropped G54/G55, standalone flags and parentheses; none of them changes a visit, by induction over the tree with the state related up to the expressions of macros (`LinkProofs`); refuted for a macro named C |
| C71 | `attribute_name` of all attribute nodes (`LinkModel`), `StateModel` | dictionary law; refuted for `TO.CMPN` and the written name of `TO.CLbN` |
| C72 | the grammar with locations (`LocModel`): every parser returns the length of the tokens it took, `node` records offset and length | an independent relation `tiles` says how nodes lie in a text; an induction over the grammar shows that it holds (`LocProofs`), a simulation that the commands are those of `GramModel` (`LocErase`), an induction over the nodes that the text and the commands determine all offsets and that the trees are in order (`LocTiles`). Coordinates: the grammar of D commands once more with nodes for coordinates (`SpotModel`); `placed` says where they are written, every D command of a tree was read by it at its location (`SpotTrace`). Expressions: likewise for the grammar of primitives (`TermModel`), the relations `spelled` and `laid_out` say how expressions are written and where (`TermProofs`) |
| C73 | `lint(parse(text), rules)` (`LintLocModel`) on `LocModel`, `LinkModel`, `LinterModel` | paths of the syntax tree and nodes of the located tree correspond (induction over the located tree), then C46, C47, C72 |
| C74 | `CliModel` (the commands of `console/gerber.py` on a file system) over `ApiModel` | relations for what arguments ask for; the methods of a new `GerberFile` by the cache invariant of C52; induction over lists of files; refuted for NON_PLATED, the blamed option and failing `format` |
| C75 | `ImageModel` (`get_image`, Pillow's `paste` with a mask, the pasting loop of composite views) over `PaintModel` and `CompositeModel` | exactness of Pillow's division by 255 at masks 0 and 255; composed with C56; induction over the pasted images with the topmost image as invariant; refuted for an opacity of 128 |
| C76 | `DumpModel` (`GerberCode.dumps`: commands of `GbModel`'s builder through `FmtModel` with default options) read by `GramModel` and `LinkModel` | invariant over calls: every number and text in the builder can be written and read (C40-C44 machinery); simulation of the recording visitor up to identities, attribute texts and the sign of constants; composed with C38; refuted for exponents and commas |
| C77 | `SvgModel` (`_dump_svg` character by character, `str.replace`, shapely's `bounds` and `svg`) | the text is related to an XML tree by a grammar of SVG (inductive relations), the tree to points by the rules of SVG (viewBox, meet, matrix, even-odd); even-odd equals outer ring minus holes for proper holes; the box is tight by induction; refuted for opacities and open files |
| C78 | `LexModel` (the rules of `GerberLexer` as matchers with look-behind, the loop of `RegexLexer`) | every rule takes at least one character and no more than there are, so tokens tile the text (induction on fuel); a code is matched by a look at all rules before it, bodies by induction over lines; refuted for signs, punctuation and long codes |
| C79 | `FloatModel` (rounding to 53 bits half to even with gradual underflow; shortest decimal text; reader and writer of doubles) | nearest double and ties by comparing mantissas in units of the last bit; relative error 2^-53, so 15 digits are recovered by rounding; 17 digits tell neighbouring doubles apart, so the search for the shortest text ends; whole files by instantiating C43 |
| C80 | `GbModel`, `DumpModel`, `GramModel`, `LinkModel`, `StateModel`, `CompilerModel`, `VmModel`, `PaintModel` composed; `DepictSpec` (figures as sets of points, from the calls alone) | the recorded calls of C76 and the picture of C64 walk over the same commands, the latter mapped from rationals to reals; induction over the walk relates every call with the objects it adds, then every wish with its objects; outlines by C32, C33, C58 and C59 |
| C81 | `FmtModel`; `LaidSpec` (a relation between commands and laid out texts, without state) | removing an indent undoes adding it unless it is empty; induction over the nesting shows that the indentation is restored after each command; the relation is shown to determine the text, which refutes the three exceptions |
| C82 | `CompilerModel` over R, `StateModel`; `AcceptSpec` (a condition on prefixes of the file, no state) | an invariant ties the visitor to the commands before it; each hook succeeds exactly when its command is acceptable, by induction over nesting; conversion succeeds by the layer invariant of C12 |
| C83 | the models of C80; `AgreeSpec` (a condition on single calls) | every executed command of a builder's file satisfies the conditions of C82, by an invariant of the builder and the walk of C76; C82 then gives the program |
| C84 | `WalkModel` (listeners are functions on a state that may raise); `WalkSpec` (parts of a node, listing as a relation) | every callback is shown to tell about the listing of its node, by induction over expressions, macros and blocks; registration by induction over the registrations; the events of the linter model are those of interest |
| C85 | `VmModel`, `CompilerModel`; `InkSpec` (which command and which macro leaves something) | `InkVm`: what a successful run says about the layers, by induction over the program; `InkProofs`: open contours as an invariant of the visit, macros by induction over their bodies; the layers of a program are the main layer, flashes and parts of flashes; with redefinitions (`RedefSpec`, `RedefInk`) only the definitions at first flashes count; `InkBlockProofs`, `InkBlockProps`: with blocks, through the pictures of C64 (`InkBlockSpec`: what commands leave, and whether it can be painted; layers of the program are the groups of the picture); `InkBuild`: the same read off the calls recorded for C76, hence from the calls of the builder |
| C86 | `PaintModel`, `VmModel`; `PixelSpec` (points of pixels, points off edges, polygon filling that is right off edges) | `PixelProofs`: boxes of layers are upright and hold what they show; a pixel of a pasted layer comes from a point at most one pixel off; induction over the nesting of layers; `PixelProps`: ranks of layers of a program, the pictures of C64, without and with blocks, with redefinitions (`RedefInk`), for the insides of the pillow backend (layers are pasted at most two levels deep); an instance of the filling (boxes) and a program |
| C87 | `FmtModel`, `NumTextModel`, `PresetModel` (the presets), `GramModel` | rounding to the nearest multiple is unique, so the text of a number is that of the rounded one; the file with rounded numbers (`SettleSpec`) is well formed, survives and has the same text, by induction over expressions and nesting; the tidy file of C43 has the same text when no removed code stands in a block, as the indent is empty outside; refuted otherwise |
| C88 | `CompilerModel` | dropping the metadata is a homomorphism of visitors that commutes with every callback of the compiler, so the two runs agree step by step; labels by the map of attributes in force at each point; sources by an invariant over all layers at all points; refuted for regions, moirés and thermals |
| C89 | `LenModel` over the grammar | locality of every parser by induction over the grammar: the outcome of a command is settled by the text up to its asterisk or percent sign, alternatives are told apart by their first letters, repetitions are closed by what their element does not match; fuel monotonicity by a refinement relation; sharpens C66 to pieces read on their own |
| C90 | `JsonModel` (the classes of the job file as pydantic validates them) | the layout as a table in `JsonSpec`; every reader follows its part of the table (`reads`), by composition over fields, lists and objects |
| C91 | `MdModel`, `OpMdModel`, `PrimMdModel` (markdown of attributes, aperture definitions, drawing commands and primitives) | `spans` are the texts between backquotes, lines come from splitting at line feeds (`MdSpec`); injectivity: the first span gives the kind, fields hold no comma, so the list splits at commas even if fields hold backquotes; which attributes are listed: C08 and C67_state, with the keys of dictionaries distinct in all states (`MdEffectProps`) |
| C92 | `CompModel` (what is offered; when is in `LsModel`) | the dictionaries of the tracker hold the last AD per D code and the blocks, without repeated keys (simulation over `executed_file`, `CompProofs`); a snippet is cut into characters and places (`CompSpec`), filled in it is the text the formatter writes for the command without line ends, which C43's `file_through` reads back; files that were read, also by the resilient parser the server uses (C66), have the D codes and definitions this asks for, and by C89 the command is added where it is inserted (`CompFileProps`); `CompServeProps` puts parser, tracker and offers into `LsModel`, so that C54 gives the answers of the server |

## Trusted base

* the Coq 8.16.1 kernel (and `vm_compute`);
* the reading of the Python source cited at each definition;
* axioms: none of our own. `Print Assumptions` is run beside every theorem. It reports
  "Closed under the global context" for all theorems except those about real numbers,
  for which it lists the axioms of the standard library's `Reals`
  (`ClassicalDedekindReals.sig_not_dec`, `ClassicalDedekindReals.sig_forall_dec`,
  `FunctionalExtensionality.functional_extensionality_dep`, `Classical_Prop.classic`):
  `C14_copies_partial`, `C14_ends_at_origin_partial`, `C14_copy_count`,
  `C16_transformation`, `C16_arc_direction_partial`, `C16_arc_direction_refuted`,
  `C19_round_partial`, `C23_pillow_accepts`, `C27_from_center`, `C37_pillow_partial`,
  `C56_shapely`, `C56_pillow`, `C56_runs_partial`, `C61_shapely`, `C62_pasted_inside`,
  `C62_pixel_shift`, `C75_file`, the theorems of C30 except `C30_closed`, and every theorem of
  C17, C28, C29, C31, C32, C33, C34, C57, C58, C59, C64, C65, C80, C82, C83, C85 and C86.

### Modelled code

| Source (`src/pygerber/…`) | File | Left out |
|---|---|---|
| `gerber/ast/state_tracking_visitor.py` CoordinateFormat | `CoordModel` | floats are exact rationals |
| `gerber/ast/state_tracking_visitor.py` State, visitor; `gerber/ast/ast_visitor.py` traversal | `Ast`, `StateModel` | attribute value classes are opaque texts; cached properties |
| `gerber/ast/expression_eval_visitor.py` | `ExprModel` | |
| `gerber/compiler/compiler.py` | `GeomModel`, `CompilerModel` | logging, the JSON text of attributes in metadata |
| `vm/types`, `vm/commands` as used by the compiler | `GeomModel` | pydantic validation |
| `vm/types/matrix.py`, `vm/types/vector.py`, `vm/commands/shape.py`, `vm/commands/shape_segments/*.py` | `GeomModel` | cached properties, printing |
| arc and polygon points of `vm/pillow/vm.py`, `vm/shapely/vm.py` | `ArcModel` | rasterisation (`ImageDraw`), shapely set operations |
| `vm/types/box.py` | `BoxModel`, `GeomModel` | rendering helpers |
| `vm/vm.py`; layer handling of `vm/pillow/vm.py`, `vm/shapely/vm.py` | `VmModel` | what is painted (a layer is the list of commands painted on it) |
| `vm/types/color.py` | `ColorModel` | floats are exact rationals |
| `builder/rvmc.py` | `RvmcModel` | generator objects: `with` blocks are entered and left by separate calls |
| `builder/gerber.py` | `GbModel` | floats are exact rationals; texts of comments; attribute values are opaque texts |
| `gerber/parser/pyparsing/grammar.py` and the pyparsing elements it uses | `PegModel`, `GramAst`, `GramModel`, `ResModel` (error resilient mode), `LocModel`, `SpotModel`, `TermModel` (locations) | packrat cache; number and date conversion is a parameter (`reader`), exact in `GramNum` |
| `gerber/formatter/formatter.py`, `options.py`, `enums.py` | `FmtModel`, `NumTextModel` | output streams; number and date output is a parameter (`writer`), exact in `NumTextModel` |
| `gerber/linter/*.py`, `gerber/linter/rules/*.py` | `LinterModel` | violation descriptions; events of classes no rule listens to (parts of macros, coordinates, generic callbacks) |
| `gerber/ast/node_finder.py` | `FinderModel` | nodes are trees with a start line and column; visiting the parts of a command other than blocks (never changes the answer) |
| `gerber/api/_enums.py`, `gerber/api/_gerber_file.py` | `ApiModel` | `upper`/`lower` for ASCII; parsing, compiling, rendering and formatting are parameters; saving of images |
| `ImageSpace` (`_gerber_file.py` 45-156), `gerber/api/_composite_view.py`, sizes and pixels of `vm/pillow/vm.py` | `CompositeModel` | exact rationals; image contents |
| `gerber/api/_gerber_job_file.py`, `_project.py` | `JobModel`, `JsonModel` | a file is its path and type; reading is a predicate; the syntax of JSON, repeated keys |
| `gerber/language_server/_server/server.py`, `document_cache.py`, `documents/document.py` | `LockModel` | logging, `initialize`; FIFO order of waiters (any order is allowed) |
| `gerber/language_server/_server/documents/gerber.py` | `LsModel` | constant completion lists are constructors; parsing, finding, hover texts, tracking, formatting are parameters |
| `gerber/language_server/_server/documents/gerber.py` 130-347 | `CompModel` | items are label, kind and detail or inserted text; documentation texts are left out |
| painting and results of `vm/shapely/vm.py` 267-296, 373-422 and `vm/pillow/vm.py` 273-283, 445-530 | `PaintModel` | filling of polygons (`Polygon`, `ImageDraw.polygon`) and the box test of `STRtree` are parameters; styles and colours |
| `Shape.outer_box`, `Shape.transform` as objects (`vm/commands/shape.py` 40-54) | `CacheModel` | other copies of objects |
| `gerber/language_server/_server/hover/gerber.py` | `HoverModel` | Markdown layout; the text of other commands |
| `gerber/ast/nodes/attribute/TF.py` check_source_hash | `HashModel` | the digest; text as characters |
| `common/position.py`, `gerber/ast/nodes/base.py` SourceInfo, `pyparsing.lineno`, `pyparsing.col` | `PosModel` | lengths of nodes |
| `gerber/ast/nodes/attribute/*.py` `attribute_name` | `LinkModel` | contents of attributes (arbitrary) |
| `console/gerber.py`, `vm/types/style.py` | `CliModel` | click except choices and existing paths; encoders and merging are parameters; printing of rules; `expanduser` and `resolve` |
| `console/gerber.py` (`lint`), `linter/__init__.py` on texts | `LintLocModel` | printing |
| `vm/pillow/vm.py` (`PillowResult`), `api/_composite_view.py` (pasting) | `ImageModel` | encoders; Pillow's C code is modelled from its documented formulas |
| `builder/gerber.py` (`GerberCode.dump`, `dumps`), `formatter/options.py` (defaults) | `DumpModel` | file objects |
| `vm/shapely/vm.py` (`ShapelyResult`) | `SvgModel` | encodings; shapely's `bounds` and `svg` from its source; geometries other than (multi)polygons |
| `gerber/pygments.py` (`GerberLexer`) | `LexModel` | documentation lexer; normalisation of line ends by Pygments |
| `gerber/ast/state_tracking_visitor.py:148,162`, `gerber/formatter/formatter.py` (`_fmt_double`) on floats | `FloatModel` | overflow to infinity, negative zero |
| `gerber/linter/event_ast_visitor.py`, `gerber/ast/ast_visitor.py` on all nodes | `WalkModel` | replacement of nodes by return values (unused) |
| `gerber/formatter/presets.py` | `PresetModel` | nothing |
| `gerber/parser/__init__.py`, `gerber/parser/pyparsing/parser.py` | `LenModel`, `ResModel`, `GramModel` | class overrides, other backends, `resilient` together with `strict=False` |
| `gerber/language_server/_server/hover/gerber.py` 111-258, 286-299, 307-406, 488-547, 656-796 (attribute lists, aperture parameters, points and states, primitives) | `MdModel`, `OpMdModel`, `PrimMdModel` | code blocks, links to the specification except those of primitives, pictures; `str` of floats and the texts of expressions are parameters |

Everything not in this table is not modelled (yet).

## Findings

Each is a theorem of the model (name in brackets), so a statement about the code as read.

* Packing with zero integer digits or zero decimal digits loses the value silently
  [`C03_pack_faithful_refuted`].
* The handler for D03 is chosen when the D-code is selected, so redefining the selected
  code flashes with the handler of the old kind [`C07_redefinition_refuted`]; an AD hides
  every later AB of the same code [`C07_block_shadowed_refuted`].
* `ignore_program_stop` is inverted: by default commands after M00/M02 are executed
  [`C09_stop_refuted`, `C09_flag_is_inverted`].
* `get_next_free_aperture_code` raises ValueError when nothing is defined yet
  [`C10_empty_storage_refuted`].
* Layer submit order: a layer used by two others is emitted twice, a shared layer with
  dependencies is reported as cyclic, and a real cycle ends in a RecursionError
  [`C12_shared_layer_refuted`, `C12_false_cycle_refuted`,
  `C12_cycle_not_reported_refuted`]. Files reach the first two by using one D-code for AD
  and AB [`C12_shared_code_refuted`, `C12_shared_code_cycle_refuted`].
* The temporary layer of a thermal is named after the macro primitive and a clock
  reading: two instances within one reading share a layer and the program defines it
  twice [`C22_equal_timings_refuted`], the second instance replacing the thermal of the
  first [`C21_shared_reading_refuted`].
* Regions: single quadrant arcs leave gaps in the contour, a D03 inside a region breaks
  the chain, and a second G36 discards the contour drawn so far
  [`C13_single_quadrant_refuted`, `C13_flash_refuted`, `C13_second_G36_refuted`].
* Flashing a block aperture ignores LP [`C15_block_flash_refuted`].
* I and J persist: an arc without I uses the I of an earlier D01
  [`C18_offset_persists_refuted`].
* An SR block moves every copy by the current point in addition to the step
  [`C14_offset_refuted`].
* The width of a line drawn with a rectangle or obround depends on the direction to the
  absolute end point instead of the direction of the line, so moving a drawing changes it
  [`C19_thickness_refuted`].
* Transformed copies of aperture layers are cached by D-code and settings and never
  invalidated: redefining a D-code after a flash still flashes the old shape
  [`C16_redefinition_refuted`, `C16_cached`; `C16_exact` says which definition is shown].
* The VM raises KeyError when a layer without box pastes a layer never defined
  [`C23_undocumented_error_refuted`], accepts streams that end inside a layer
  [`C23_ends_open_refuted`] and lets a layer with a declared box be pasted into itself
  while it is drawn [`C23_paste_open_refuted`].
* Declaring boxes changes the global order of drawing calls when layers are nested
  [`C24_nested_order_refuted`] and turns a program that pastes a layer defined later from
  accepted into an error [`C24_defined_later_refuted`].
* After an empty layer without box the VM keeps the handlers of that layer: the next
  drawing in a layer with a box fails [`C26_empty_layer_refuted`]; an empty main layer is
  an AssertionError [`C26_empty_main_refuted`].
* `angle_between` of equal directions is 360 although the range is documented as [0, 360)
  [`C29_clockwise_refuted`].
* `new_line`, `new_cw_arc` and `new_ccw_arc` return two disconnected sides; the caps exist
  only because the backends join consecutive points [`C30_line_refuted`,
  `C30_arc_refuted`].
* The box of a full counter-clockwise arc does not contain the circle
  [`C31_full_circle_refuted`].
* `Arc.transform` takes a rotation by exactly 90 degrees for a reflection and flips the arc
  (over the reals; the double cos 90 is not zero) [`C32_right_angle_refuted`].
* `new_polygon` stops its loop at 360 degrees although it starts at the rotation: a turned
  polygon has fewer sides [`C33_sides_refuted`]; the closing line hides one missing side,
  but a square turned by 180 degrees is half a square [`C33_outline_refuted`]. Macro
  polygons are in addition rotated twice [`C59_polygon_refuted`].
* Arcs whose ends coincide never finish in the shapely backend when clockwise and fail an
  assertion in pillow [`C34_full_turn_refuted`]; this includes circles of diameter zero
  [`C34_zero_circle_refuted`]. Arcs across the positive x axis are sampled with the
  resolution of the complementary arc [`C34_resolution_refuted`].
* A moire whose diameter is used up before its maximal ring count paints a disc of the
  negative diameter [`C59_moire_used_up_refuted`]; one whose diameter lies between one and
  two ring thicknesses fails an assertion [`C59_moire_hole_refuted`].
* `Color.from_hex` accepts a trailing newline [`C35_newline_refuted`].
* Builder of VM programs: calling the public `finalize` of a layer inside its `with` block
  ends it twice [`C36_finalize_refuted`]. Programs made without any builder error can be
  rejected by the VM: nothing drawn [`C37_nothing_refuted`], an empty layer
  [`C37_empty_layer_refuted`], `layer()` used twice [`C37_two_mains_refuted`], a repeated
  name [`C37_same_name_refuted`], pasting a surrounding layer [`C37_paste_open_refuted`],
  pasting into an outer layer while an inner one is open, which reorders the program
  [`C37_outer_paste_refuted`].
* Builder of Gerber files: `RegionCreator.create` writes G01/G02/G03 without telling the
  builder, so a line after a region that ended with an arc is drawn as an arc, and the other
  way round [`C38_mode_refuted`]. A coordinate that does not fit raises after the builder
  noted the new aperture and settings as written; the next item is drawn with the old ones or
  the file cannot be read at all [`C38_after_error_refuted`]. A region creator can be used
  again after `create`, keeping the closing line inside the outline
  [`C38_region_reuse_refuted`]. A custom attribute called `.AperFunction` wins over
  `set_aperture_function` even when that is called later [`C39_reserved_name_refuted`].
* Number output of the formatter: with shortest digits (the default) a number below 10^-4 or
  from 10^16 on is written with an exponent that the grammar does not know
  [`C44_exponent_refuted`, `C41_round_trip_refuted`]; with zero decimals zeros of the integer
  part are trimmed, so 100 is written as 1 and 0 as nothing [`C44_no_decimals_refuted`]; the
  option to keep trailing zeros has no effect because an enumeration member is always true
  [`C44_trimming_refuted`].
* With explicit parentheses the formatter drops the parentheses of `-(+$1)` and writes `-+$1`,
  which does not parse [`C42_same_value_refuted`].
* Files changed by formatting: `%LR0.00001*%` no longer parses [`C43_exponent_refuted`];
  `%IR90*%` with zero decimals becomes `%IR9*%` [`C43_trimmed_integer_refuted`]; missing fields
  of GenerationSoftware and ProjectId come back empty [`C43_absent_field_refuted`]; a macro named
  C, R, O or P with parameters, told apart by a space only, becomes the standard aperture
  [`C43_macro_name_refuted`]; removing G54/G55 may leave an empty text, which is no file
  [`C43_nothing_left_refuted`].
* A step and repeat header with X but without all the others is written with the text `None` and
  no longer parses; without X the other fields are dropped [`C45_step_repeat_refuted`]. A polygon
  with a hole but no rotation (possible in the AST, not from the parser) is written so that the
  hole is read as the rotation [`C45_polygon_refuted`].
* GRB001 follows the document order, the state tracker skips the rest of a block after a program
  stop in it: a reported G01/G02/G03 after a step and repeat block containing M00/M02 may be the
  only one that is executed, and deleting it changes the drawing [`C47_redundant_refuted`].
* The node finder compares only columns once one command is left: a position on a later line but
  further left than the command's start finds nothing [`C48_indented_refuted`]; a file made of a
  single block is not searched [`C48_single_command_refuted`]; before the first command the first
  command is returned [`C48_before_first_refuted`].
* The default colour map (`DEFAULT_ALPHA_COLOR_MAP`) has no entry for DRILLMAP: rendering a drill map
  without an explicit style raises `KeyError` [`C49_drillmap_refuted`].
* Nothing converts inches: an imperial file is drawn at dpmm pixels per inch but placed in
  millimetres, so layers of an imperial board do not line up [`C50_inches_refuted`]. With mixed
  units the extreme images are chosen by comparing inches with millimetres and the composite may get a negative
  size [`C50_mixed_units_refuted`]. A view without files cannot be rendered
  [`C50_no_files_refuted`]. An image on both sides of zero may lose its last pixel row or column
  [`C50_inside_refuted`].
* Inner layers of a job file are sorted as texts: layer 10 comes before layer 2
  [`C51_layer_order_refuted`]. Of two files with the same function only the last is shown
  [`C51_same_type_refuted`]; functions other than copper, masks, paste, silk, legend and profile
  are never shown [`C51_other_types_refuted`].
* A file type inferred from attributes is kept when the parser options change
  [`C52_parser_options_refuted`]; `file_type` changes by rendering [`C52_file_type_refuted`].
* The language server takes a `threading.Lock` inside coroutines of one event loop. This is
  harmless only because no document method suspends: if one did, two requests for the same
  document would block the server for ever [`C53_suspension_refuted`]. The cache test in
  `load_ast_from_code` can never succeed, because its callers flush the cache first
  (part of the proof of `C54_latest_text`).
* `Shape.transform` copies the cached `outer_box`: a shape transformed after its box was read
  reports the box of the original [`C55_boxes_refuted`, `C55_stale_box`]. The package itself
  transforms only shapes whose box was not read.
* Pasting in the pillow backend rounds twice, so the pixels of a flashed aperture can lie one
  to the left of or below those of the same shape drawn directly [`C62_same_pixel_refuted`];
  never more [`C62_pixel_shift`].
* The formatter writes the component library name as `.CLbn`, which the specification spells
  `.CLbN` (names are case sensitive there; the parser of the package ignores case)
  [`C63_names_refuted`, `C63_library_name`].
* A file without drawings compiles, but its program does not run: the main layer is empty, which
  the virtual machines answer with an assertion (or `EmptyLayer`) [`C56_blank_refuted`]. Also a
  file that flashes an aperture without shapes (say a macro of comments) does not render, whatever
  else it draws [`C56_empty_aperture_refuted`].
* The width of strokes with rectangles and obrounds is not their extent across the stroke: a
  horizontal stroke of a rectangle is as high as the rectangle is wide [`C65_across_refuted`]; the
  formula used is given exactly by `C65_width`.
* The error resilient parser, meant to accept every text, raises on an empty (or blank) document and
  on a file attribute whose value does not validate, for example an MD5 of the wrong length
  [`C66_accepts_refuted`].
* The illustration of a counterclockwise arc in a hover is clockwise (`G02` is emitted for both)
  [`C67_ccw_refuted`], clear polarity is illustrated dark [`C67_polarity_refuted`], and there is no
  picture while a block aperture is selected, because the illustration does not define it
  [`C67_block_aperture_refuted`].
* A hover inside an AB or SR block shows the state before the block, without the commands of the
  block that precede the one pointed at [`C67_block_state_refuted`].
* "Arc center at:" shows the offsets I and J instead of the centre [`C67_center_refuted`].
* `TF_MD5.check_source_hash` hashes `source[: location - 1]`, one character less than the text
  before the attribute.  That character is skipped anyway when it is a line end; on the same line as
  another command a correct checksum is refused [`C68_same_line_refuted`], and at the start of the
  file the slice wraps around [`C68_file_start_refuted`].  Tabs are hashed as spaces
  [`C68_tab_refuted`].
* `Position.__le__` and `__ge__` compare lines only, `__ne__` is false for positions in the same line
  or column [`C69_le_refuted`, `C69_ge_refuted`, `C69_ne_refuted`].
* Locations refer to the text with tabs expanded, so hover ranges and lookups are off in lines with
  tabs [`C69_tab_refuted`].
* `TO_CMNP.attribute_name` is `.CMNP` while files say `.CMPN`: `%TD.CMPN*%` does not delete the
  attribute, and it stays in the metadata of everything drawn later [`C71_part_number_refuted`].
* The grammar and the formatter call the library name attribute `.CLbn`, its node `.CLbN`; a formatted
  `%TO.CLbn,x*%` is not deleted by `%TD.CLbn*%` [`C71_library_name_refuted`].
* Formatting may change the picture: an aperture made from a macro named C becomes a circle
  [`C70_same_program_refuted`].
* `SourceInfo.length` adds up the lengths of the tokens, so white space inside a node is not counted: the end of a
  block, of a macro or of a command with spaces in it is too early, for blocks by at least one character per line
  [`C72_end_refuted`]. Locations refer to the text with tabs expanded, not to the document [`C72_tabs_refuted`].
* `Grammar.step_repeat_forward` is used in the contents of AB and SR but never given an expression, so step and
  repeat is a syntax error inside of blocks (the format does not allow it there, the grammar and the compiler do)
  [`C72_ex3`].
* `--file-type NON_PLATED` means UNDEFINED: the choices are names of `FileTypeEnum` but the value is looked up, and NON_PLATED is the one member whose value (NONPLATED) differs (`console/gerber.py:147`) [`C74_file_type_refuted`].
* An invalid `--foreground` is reported as a bad `background` option (`console/gerber.py:188`) [`C74_foreground_refuted`].
* `format` opens, and so empties, the output before the source is parsed: after a syntax error a file formatted in place is lost (`console/gerber.py:499-500`) [`C74_format_refuted`].
* The preset DEBUG_1 has a transparent background like DEBUG_1_ALPHA, and SOLDER_MASK_ALPHA has another foreground than SOLDER_MASK (`vm/types/style.py`) [`C74_presets_refuted`].
* A colour that is neither opaque nor fully transparent is weaker in a composite view than alone: each image is pasted with its own alpha as mask into a transparent base and the mask also scales alpha, so opacity 128 becomes 64 (`api/_composite_view.py:100`) [`C75_composite_refuted`].
* A builder writes numbers below 0.0001 with an exponent (`%ADD10C,1e-05*%`), which its own parser rejects (`builder/gerber.py:646`) [`C76_exponent_refuted`].
* `set_custom_attribute` takes any text: a comma inside a value makes it two values when the file is read (`builder/gerber.py:932`) [`C76_attribute_refuted`].
* SVG files are translucent: `shape.svg` is called without `opacity`, for which shapely takes 0.6, so an opaque foreground is painted with 60 % (`vm/shapely/vm.py:170`) [`C77_opacity_refuted`].
* `save_svg` rejects files opened for writing bytes: they are instances of classes of `io`, not of `typing.BinaryIO` (`vm/shapely/vm.py:132`) [`C77_file_refuted`].
* The Pygments lexer marks `X` in `X-100` as an error: its rules ask for a digit after an axis (`gerber/pygments.py:44-47`) [`C78_signed_refuted`].
* The Pygments lexer has no rule for `*` and `%`, so every valid file has error tokens (`gerber/pygments.py:41-85`) [`C78_star_refuted`].
* The Pygments lexer does not recognise template names after aperture codes of four and more digits (`gerber/pygments.py:66-68`) [`C78_long_code_refuted`].
* Arcs whose ends are not equally far from the centre are drawn with the radius of the start and leave their `outer_box`; nothing checks `is_valid_arc` (`vm/commands/shape_segments/arc.py:59-87`) [`C57_unequal_refuted`].
* With 16 or more digits in a coordinate format, such as `%FSLAX97Y97*%`, a coordinate read and packed again is another coordinate: 990000000.0000003 becomes 990000000.0000004 (`gerber/ast/state_tracking_visitor.py:148,204`) [`C79_sixteen_digits_refuted`].
* The Pygments lexer has no rules for LP, LM, LR and LS (`gerber/pygments.py:41-85`) [`C78_load_refuted`], and takes the first letter of a macro named `X1` for an axis [`C78_axis_name_refuted`].
* Indentation: with `block_aperture_body_indent` set and `step_and_repeat_body_indent` zero, a step
  and repeat inside of a block aperture ends the indentation of the block, since `base[: -0]` is
  empty [`C81_empty_indent_refuted`]; a removed G54 leaves its indentation in front of the next
  command [`C81_left_out_refuted`]; the lines of a macro inside of a block are indented at the end
  of the line before [`C81_macro_refuted`].
* The compiler rejects a macro aperture drawn with, a second G37, and a variable of a macro
  without a value (zero according to the format) [`C82_accepted_partial`, `C82_unbound`].
* A builder accepts a pad that is a polygon of two vertices; its file cannot be compiled even
  when the pad is never used [`C83_two_sided_refuted`].
* Listeners of the event visitor for AD, TA, TF, TO, expressions, coordinates and files are told
  twice about each node, because the callback of the base class reports the same class again;
  listeners of the base classes are never told [`C84_once_refuted`, `C84_base_classes`].
* A builder lets clients create and use a custom pad without figures, or a thermal whose gaps
  cover it; the file compiles but cannot be rendered, whatever else it draws
  [`C85_builder_partial`, case `C85_blank_pad`].
* The formatter is not idempotent when `remove_g54` or `remove_g55` removes a code: inside a block its indent is left in front of the next command, and goes away the second time; with `keep_non_standalone_codes` the operation behind it gets its indent only the second time. All presets remove both codes. [`C87_removed_inside_refuted`, `C87_removed_glued_refuted`]
* The presets `balanced` and `small_indent` are the same. [`C87_same_presets`]
* With `include_metadata`, regions carry no metadata: `_get_region_metadata` computes them and returns `None`. [`C88_region`, `C88_region_refuted`]
* With `include_metadata`, the rings of a moiré and the paste of a thermal carry no metadata, unlike all other primitives. [`C88_rings_refuted`]
* Without `strict` the parser is documented to parse as much as possible and to stop at the first unrecognised token. It raises when the first token is not recognised, and when a value is rejected behind commands it has read. [`C89_stops_refuted`]
* In the resilient parser an unreadable line inside an aperture block costs the block: its opening and closing lines are reported as unreadable as well and its commands are given as commands outside of any block. Outside of blocks only the line itself is lost (`C66_one_line`). [`C66_line_in_block_refuted`]
* A `GerberJobFile` that was not loaded from disk cannot be made: `model_post_init` subscripts the missing context. So the documented use of `to_project(path=…)` is impossible, and the argument is never used. [`C90_path_argument_refuted`, `C90_path_unused`]
* The classes of the job file set `config` instead of `model_config`, so that unknown keys are dropped, not kept; `DesignRules` is defined but never read. [`C90_extra_refuted`]
* M00 or M02 inside of AB or SR cannot be ignored: with either value of `ignore_program_stop` the program is that of the commands before the block; the drawings of the block and everything after it are lost without an error. [`C09_stop_in_block`, `C09_stop_in_block_refuted`]
* Hover texts call the manufacturer of a component (`.CMfr`) its supplier. [`C91_manufacturer_refuted`]
* The closing backquote of the component attribute stands behind its name, so the name is not set as code: `` `Component reference designator(.C`) ``. [`C91_component_refuted`]
* Backquotes and line ends in attribute fields, which the grammar accepts, break the markdown of hover texts; only flash texts replace backquotes. [`C91_backquote_refuted`, `C91_line_refuted`]
* The hover text of a flash text attribute shows neither mode, mirroring, font, size nor comments. [`C91_flash_refuted`]
* A pin attribute without a function is shown with the function `None`. [`C91_pin_refuted`]
* The hover text of an aperture definition does not list the attributes the aperture gets, as it is made from the state before the definition; for a redefined code it lists those of the earlier aperture. [`C91_own_attributes_refuted`]
* The hover text of a circle primitive links to the section on comments (4.5.1.2) instead of that on circles (4.5.1.3), and that of a vector line to the same sections. [`C91_reference_refuted`]
* Typing `%` in a file that defines no aperture yet offers nothing: `get_next_free_aperture_code` takes the maximum of an empty sequence, and the exception also loses the offers of `FS`, `MO` and `LP` that belong at the start of a file [C92_no_aperture_refuted, C92_session_refuted].
* `G54`, `G55`, `G74`, `G75`, `G90` and `G91` are inserted without `*`, unlike the other G codes: what is left is not a command [C92_unfinished_refuted]. The extended commands are inserted without the closing `%` [C92_not_closed_refuted].
* Completions are computed with `ignore_program_stop=True`, which ends the walk at the first `M00` or `M02` (see C09): apertures defined after it are not offered, and their D codes are offered as free [C92_after_stop_refuted].
