# Formal model of Wasted-Audio/hvcc in Rocq (Coq 8.16.1)

## Layout
* `rocq/theories/<Topic>Model.v` - executable Gallina transcription of the code, every definition citing
  file and lines of /repo and its simplifications.  No proofs.
* `rocq/theories/<Topic>Spec.v` - where the property needs vocabulary: a small specification, written
  without the model's helpers (FIFO list, difference equation, dataflow semantics, input delayed by d, ...).
* `rocq/theories/<Topic>Proofs*.v` - lemmas.
* `rocq/theories/<Topic>Props.v` - the property theorems, each with `Print Assumptions` and, where it has
  hypotheses, an `Example` of a concrete case that meets them.
* Undefined behaviour (out of bounds or uninitialised access, signed overflow, division by zero, float to
  int out of range, null pointers) is the outcome `UB`, a failed `hv_assert` is `AssertFail`; both are
  different from every `Ok`, so "= Ok ..." theorems prove their absence.
* `properties.jsonl` - the properties; `MANIFEST.json` - which theorem proves which;
  `seeded/LOG.jsonl` - wrong programs the theorems were tested against.

## Conventions
* A property that holds of the code is `proved`.
* A property a user would expect but which is false of the code is `partial`: its theorems are named
  `X_refuted` and prove, for a concrete input, that the model of the unchanged code violates it.  The part
  that does hold is a separate property with its exact boundary (C60-C82 are the false remainders of
  C07-C50 after that split).
* `X_partial` theorems prove only part of the statement; what is missing stands beside the theorem
  (`del1_avx_other_lanes_partial`, `samphold_neon_partial`, `rpole_avx_partial`).

## Trusted base
* Coq 8.16.1's kernel, including `vm_compute` (used for concrete witnesses and examples).
* The reading of the C, C++, Python and Pd sources into Gallina; it is not machine checked.
* Axioms: no axiom of our own.  Theorems that mention real numbers or Flocq floats use the standard
  library's axioms of the classical reals, called `Reals` below:
  `ClassicalDedekindReals.sig_not_dec`, `ClassicalDedekindReals.sig_forall_dec`,
  `FunctionalExtensionality.functional_extensionality_dep`, `Classical_Prop.classic`;
  `Reals-` is the subset `sig_forall_dec`, `functional_extensionality_dep`.  The per-theorem list is below.
* Flocq (installed library, itself axiom free beyond the reals) for IEEE binary32: one NaN, round to
  nearest even, no flush to zero.
* Data model: 64 bit, little endian, `int` 32 bit, sizeof(HvMessage)=24, sizeof(Element)=16,
  sizeof(ReceiverMessagePair)=32.  `hv_assert` is `assert` (enabled).  malloc/realloc succeed.
* Memory model of the pipe: sequential consistency of the individual loads and stores (the fences of
  HvLightPipe.c are assumed to give that); the host runs one producer and one consumer.

## Plan and result per property

Axioms: `none` = closed under the global context; `Reals` and `Reals-` are listed under "Trusted base".

| id | title | model | how it is proved (or refuted) | status | axioms |
|----|-------|-------|------|------|------|
| C01 | Message pipe is a lossless FIFO under every interleaving | Pipe | byte memory of HvLightPipe, producer and consumer micro-steps interleaved freely; invariant on the layout of committed records, refinement to a FIFO list | proved | none |
| C02 | Message pipe stays lossless for records of any size | Pipe | refuted: a run with a record size that is no multiple of 4 | partial | none |
| C03 | A drained pipe accepts any record that fits half the buffer, but not every record that fits the buffer | Pipe | byte memory of HvLightPipe, producer and consumer micro-steps interleaved freely; invariant on the layout of committed records, refinement to a FIFO list | proved | none |
| C04 | Scheduled messages come out in timestamp order, first-come-first-served on ties | Queue | heap of linked nodes and the recycled node pool; representation invariant, refinement to a list with stable sorted insertion | proved | none |
| C05 | Cancelling a message removes exactly that message | Queue | heap of linked nodes and the recycled node pool; representation invariant, refinement to a list with stable sorted insertion | proved | none |
| C06 | Clearing messages after a time keeps the earlier ones deliverable | Queue | refuted: concrete history, dangling next pointer | partial | none |
| C07 | Live messages never share storage | Pool | byte ranges and four free lists; invariant: live and free chunks pairwise disjoint, counting argument for capacity | proved | none |
| C08 | A bounded number of live messages never exhausts the pool | Pool | byte ranges and four free lists; invariant: live and free chunks pairwise disjoint, counting argument for capacity | proved | none |
| C09 | Every host message is delivered exactly once, in time order, in the audio block that contains its timestamp | Process | render loop over an abstract message handler; induction over blocks and calls | proved | none |
| C10 | Time keeps increasing for ever | Process | refuted: two runs across the 2^32 wrap | partial | none |
| C100 | expr~ accepts whatever its parser accepts | Expr | refuted: witness expressions | partial | none |
| C101 | Every expr~ of a patch runs its own expression | Expr | dictionary in insertion order; induction over objects | proved | none |
| C102 | Variables of a control expr are bound by number | Expr | replacement in descending order; prefix order lemma, induction over variables | proved | none |
| C103 | A control expr takes every variable of Pd | Expr | refuted: witness texts | partial | none |
| C104 | A control expr answers with the latest values | Expr | message model; induction over histories | proved | none |
| C105 | Binary signal operators compute what the patch says | Op | connection lists rewritten object by object; each case of the reduction is a step that turns every solution of the new patch into a meaning of the old one; induction over the objects | proved | none |
| C106 | Multiplying by a constant 0 only silences its own output | Op | refuted: witness patch | partial | none |
| C107 | Times in milliseconds are rounded down to whole samples | Time | Flocq binary32/64; the product is exact, and no quotient by 1000 of a 51-bit number rounds up to the next integer | proved | Reals |
| C108 | Converting samples to milliseconds and back loses at most one sample | Time | error bounds of the four roundings | proved | Reals |
| C109 | Converting samples to milliseconds and back gives the same number | Time | refuted by computation | partial | Reals |
| C11 | Splitting a render call does not change the result | Process | render loop over an abstract message handler; induction over blocks and calls | proved | none |
| C110 | The delay of a message sent by the host is respected | Time | error bounds and monotonicity of rounding | proved | Reals |
| C111 | The delay of a message sent by the host is rounded down exactly | Time | refuted by computation | partial | Reals |
| C112 | tabwrite~ never writes outside its table | Recorder | invariant relating position, clock and the pending stop; error bound for the stop time | proved | Reals |
| C113 | tabwrite~ records its input from the start position to the end | Recorder | exact stop time up to one sample; induction over the blocks | proved | Reals |
| C114 | tabwrite~ fills the whole table | Recorder | refuted by computation | partial | Reals |
| C115 | tabwrite~ can be given another table | Recorder | refuted by computation | partial | Reals |
| C116 | Message objects always do the same with the same messages | Patch | induction on the number of calls | proved | Reals |
| C117 | moses splits numbers at its threshold | Patch | the flattened patch is run symbolically; invariant on its objects, induction over the inputs | proved | Reals |
| C118 | spigot passes messages while its gate is open | Patch | the flattened patch is run symbolically; invariant on its objects, induction over the inputs | proved | Reals |
| C119 | change passes a number on only if it differs from the previous one | Patch | the flattened patch is run symbolically; invariant on its objects, induction over the inputs | proved | Reals |
| C12 | Compile-time and run-time name hashes agree | Hash | both hash functions on byte lists; induction over 4-byte groups | proved | none |
| C120 | change passes every changed number on | Patch | the flattened patch is run symbolically | partial | Reals |
| C121 | swap exchanges its inlets | Patch | the flattened patch is run symbolically; invariant on its objects, induction over the inputs | proved | Reals |
| C122 | int drops the fraction | Patch | the flattened patch is run symbolically; invariant on its objects, induction over the inputs | proved | Reals |
| C123 | clip keeps numbers within its bounds | Patch | the flattened patch is run symbolically; invariant on its objects, induction over the inputs | proved | Reals |
| C124 | A toggle switches between 0 and 1 | Patch | the flattened patch is run symbolically; invariant on its objects, induction over the inputs | proved | Reals |
| C125 | notein and polytouchin report the messages of their channel | Patch | the flattened patch is run symbolically; invariant on its objects, induction over the inputs | proved | Reals |
| C126 | bendin, touchin and pgmin report the messages of their channel | Patch | the flattened patch is run symbolically; invariant on its objects, induction over the inputs | proved | Reals |
| C127 | ctlin reports the controllers it is asked for | Patch | the flattened patch is run symbolically; invariant on its objects, induction over the inputs | proved | Reals |
| C128 | ctlin treats controller 0 like the others | Patch | the flattened patch is run symbolically | partial | Reals |
| C129 | noteout, polytouchout and ctlout send what their inlets hold | Patch | the flattened patch is run symbolically; invariant on its objects, induction over the inputs | proved | Reals |
| C13 | Name hashes agree for non-ASCII names too | Hash | refuted: one UTF-8 name | partial | none |
| C130 | bendout, pgmout and touchout send what their inlets hold | Patch | the flattened patch is run symbolically; invariant on its objects, induction over the inputs | proved | Reals |
| C131 | MIDI output objects distribute a list over their inlets | Patch | the flattened patch is run symbolically | partial | Reals |
| C132 | delay sends one bang after its time | Patch | the flattened patch is run symbolically; invariant on its objects, induction over the inputs | proved | Reals |
| C133 | pipe delays every message | Patch | the flattened patch is run symbolically; invariant on its objects, induction over the inputs | proved | Reals |
| C134 | metro sends bangs at equal distances | Patch | the flattened patch is run symbolically; invariant on its objects, induction over the inputs | proved | Reals |
| C135 | The period of metro is the number of milliseconds asked for | Patch | the flattened patch is run symbolically | partial | Reals |
| C136 | 0 stops metro | Patch | the flattened patch is run symbolically | partial | Reals |
| C137 | timer measures the time since it was started | Patch | the flattened patch is run symbolically; invariant on its objects, induction over the inputs | proved | Reals |
| C138 | timer works at any time | Patch | the flattened patch is run symbolically | partial | Reals |
| C139 | until sends as many bangs as it is told | Patch | loop lemma by induction on the remaining bangs, then as C117 | proved | Reals |
| C14 | Message elements read back what was written | Message | HvMessage with explicit u16 numBytes and byte memory; induction over element lists | proved | none |
| C140 | until ends for every number and is started by bang | Patch | strong induction on the number of calls: the loop never leaves its states | partial | Reals |
| C141 | makenote ends every note it begins | Patch | the flattened patch is run symbolically; invariant on its objects, induction over the inputs | proved | Reals |
| C142 | makenote holds any number of notes | Patch | the flattened patch is run symbolically | partial | Reals |
| C143 | stripnote drops notes of velocity 0 | Patch | the flattened patch is run symbolically; invariant on its objects, induction over the inputs | proved | Reals |
| C144 | stripnote remembers the velocity of every list | Patch | the flattened patch is run symbolically | partial | Reals |
| C145 | clip~ limits every number on every build | Snd | interpretation of the flattened patch per build, case analysis on the order of floats | proved | Reals |
| C146 | clip~ stays between its bounds whatever the input | Snd | as C145 | partial | Reals |
| C147 | wrap~ gives the fractional part | Snd | Flocq: floor is exact, subtraction is rounded once | proved | Reals |
| C148 | wrap~ is less than 1 | Snd | witness evaluated by the kernel | partial | Reals |
| C149 | abs~ is the absolute value on every build | Snd | bit operations on encodings | proved | Reals |
| C15 | Copying a message is deep and stays inside the declared size | Message | HvMessage with explicit u16 numBytes and byte memory; induction over element lists | proved | none |
| C150 | /~ divides and protects against 0 | Snd | masks on encodings; Flocq division | proved | Reals |
| C151 | /~ is correctly rounded on every build | Snd | error bound of the reciprocal table (kernel computation over 256 entries) and of one multiplication | partial | Reals |
| C152 | sqrt~ is the root of positive numbers and 0 otherwise | Snd | masks on encodings | proved | Reals |
| C153 | cos~ is the cosine | Snd | error propagation through 20 operations, alternating-series bounds for sin | proved | Reals |
| C154 | osc~ is the cosine of its phase | Snd | as C153 | proved | Reals |
| C155 | ftom~ and rmstodb~ are close to the logarithms they stand for | Snd | bit fields of encodings, bounds of ln, error propagation | proved | Reals |
| C156 | ftom~ and rmstodb~ work on every build | Snd | evaluation | partial | Reals |
| C157 | A comparison gives 1 or 0 | Snd | evaluation per build | partial | Reals |
| C158 | The functions of the C library can be used in signals on every build | Snd | evaluation per build | partial | Reals |
| C159 | tabread~ shows a sample of its table, whatever its input | Snd | clamping keeps the index in range; every build's conversion | proved | Reals |
| C16 | Message format test matches the message exactly | Message | HvMessage with explicit u16 numBytes and byte memory; induction over element lists | proved | none |
| C160 | tabread~ drops the fraction of the position | Snd | as C159; witness | partial | Reals |
| C161 | tabread4~ interpolates between neighbouring samples | Snd | as C159; error propagation | proved | Reals |
| C162 | tabread4~ works with every table | Snd | evaluation | partial | Reals |
| C163 | lop~ never amplifies | Snd | convex combination is at most 1; rounding is monotone; induction over the samples | proved | Reals |
| C164 | sqrt~ is right on NEON | Snd | evaluation | partial | Reals |
| C165 | The records of a Pd file are read as they were written | Parse | induction on the words; every break of lines gives the same records | proved | none |
| C166 | Every atom can occur in a Pd file | Parse | evaluation | partial | none |
| C167 | A message box keeps its messages | Parse | induction on the messages | proved | none |
| C168 | Every message box is understood | Parse | evaluation | partial | none |
| C169 | A patch is read whole | Parse | induction on the nested patch, the number of lines bounds the recursion | proved | none |
| C17 | Message text form | Message | HvMessage with explicit u16 numBytes and byte memory; induction over element lists | proved | none |
| C170 | A slider, button or number box sends to and receives from its names | Parse | invariant of the objects added | proved | none |
| C171 | A message box sends its messages to their receivers | Parse | invariant of the objects added | proved | none |
| C172 | Names and messages for receivers work everywhere | Parse | evaluation | partial | none |
| C173 | A table has the size it declares | Parse | evaluation | partial | none |
| C174 | The arguments an abstraction declares are found | Parse | invariant of the dictionary of canvases, induction on the nested patch | proved | none |
| C175 | Declarations are found however Pd writes the file | Parse | evaluation | partial | none |
| C176 | Every instance of an abstraction has its own $0 | Parse | induction on the tree of instances | proved | none |
| C177 | An abstraction that contains itself is recognised | Parse | induction on the depth | partial | none |
| C178 | Deeper receivers get a message first | Parse | from the order of priorities | proved | none |
| C179 | Deeper receivers get a message first in patches of any size | Parse | evaluation | partial | none |
| C18 | Delay object: pending messages fire once after their delay and can be cleared or flushed | Delay | HvControlDelay over the sorted-queue specification proved in C04; invariant over histories | proved | none |
| C180 | MIDI messages to a plugin reach notein, ctlin, bendin and the like | Midi | induction on the block, all status bytes by evaluation | proved | Reals |
| C181 | midiin gets the bytes of a plugin's messages | Midi | evaluation | partial | Reals |
| C182 | Realtime messages to a plugin reach midirealtimein | Midi | induction on the block | partial | Reals |
| C183 | A MIDI event takes effect at its frame | Midi | error bounds of Flocq's rounding and C110 | proved | Reals |
| C184 | Each MIDI event of a block takes effect at its own frame | Midi | inversion | partial | Reals |
| C185 | What MIDI objects send leaves as the bytes of that message | Midi | case analysis, bit arithmetic | proved | none |
| C186 | Polyphonic pressure leaves a plugin as such on any port | Midi | evaluation for 16 channels | partial | Reals |
| C187 | Only valid MIDI bytes leave | Midi | case analysis | partial | Reals |
| C188 | Notes played by a patch leave the device | Midi | induction on the history, with C129 | proved | Reals |
| C189 | midiout sends the messages whose bytes it gets | Midi | induction on the bytes | partial | Reals |
| C19 | Random numbers stay in range and never lock up | Random | Lehmer generator on Z, floats of Flocq; modular arithmetic, period by primality certificate | proved | Reals |
| C190 | MIDI messages to a web page reach the objects | Midi | case analysis | proved | Reals |
| C191 | What MIDI objects send leaves a web page as the bytes of that message | Midi | case analysis | proved | Reals |
| C192 | midiin and midiout of a web page pass raw bytes | Midi | case analysis | partial | Reals |
| C193 | Start, continue and stop follow the transport of the host | Midi | induction on the blocks | proved | Reals |
| C194 | The MIDI clock of a plugin keeps time | Midi | induction on ticks and blocks, error bounds of Flocq's rounding | proved | Reals |
| C195 | The MIDI clock survives odd tempos | Midi | induction on fuel and blocks | partial | Reals |
| C196 | The MIDI clock starts with the transport | Midi | evaluation | partial | Reals |
| C197 | print shows label and message on a device | Midi | lemmas on the buffer | proved | none |
| C198 | print shows label and message of any length | Midi | lemmas on the buffer | partial | none |
| C199 | Number boxes, sliders and float keep a number | Box | as C117 | proved | Reals |
| C20 | Control arithmetic is defined exactly inside a known region | Binop | all 24 operators on Flocq binary32 and 32 bit integers; case analysis with real-number error lemmas | proved | Reals |
| C200 | float sends the first number of a list | Box | one run | partial | Reals |
| C201 | The conversions compute what their names say | Box | as C117; error bounds on the reals, with bounds on ln 2 and ln 10 from the series of exp | proved | Reals |
| C202 | div drops the remainder | Box | as C117; exactness of small whole numbers | proved | Reals |
| C203 | midiin reports byte and port | Box | as C117 | proved | Reals |
| C204 | random stays below its bound | Box | as C117; the product of a value below 1 and the bound rounds to less than the bound | proved | Reals |
| C205 | random repeats itself after the same seed | Box | as C117; determinism | proved | Reals |
| C206 | trigger sends from right to left | Fan | flattening for any number of outlets; the calls by induction over the list of messages sent | proved | Reals |
| C207 | trigger f sends a number for every message | Fan | one run | partial | Reals |
| C208 | unpack distributes a list | Fan | induction over the outlets | proved | Reals |
| C209 | pack collects numbers | Fan | invariant: the stored numbers; induction over the inputs | proved | Reals |
| C21 | Integer division and modulus follow their documented rules | Binop | all 24 operators on Flocq binary32 and 32 bit integers; case analysis with real-number error lemmas | proved | Reals |
| C210 | route sends a message to the first argument that fits | Fan | the connections of every outlet for any number of arguments; equality of codes is equality of elements | proved | Reals |
| C211 | route compares numbers and words | Fan | witnesses | partial | Reals |
| C212 | select sends a bang for the first argument that fits | Fan | as C210 | proved | Reals |
| C213 | line moves in steps of its grain | Ramp | RampSpec: a state machine with whole milliseconds; simulation of line.pd event by event (RampProofs2-5) | proved | Reals |
| C214 | line ramps to its target | Ramp | from C213 by induction on the steps | proved | Reals |
| C215 | line keeps to the straight line | Ramp | error analysis of the step and of its repeated addition (RampProofs7) | proved | Reals |
| C216 | line arrives when the time is over, grain dividing it | Ramp | from C214 | proved | Reals |
| C217 | line arrives when the time is over | Ramp | counterexample from C214 | partial | Reals |
| C218 | Real time messages to a web page reach midirealtimein | Midi | case analysis of the sixteen system messages | proved | Reals |
| C219 | noise~ stays between -1 and 1 | Noise | NoiseSpec; invariant on the lanes, error analysis of the sample of an int | proved | Reals |
| C22 | Resizing a table keeps its data and pads with zeros | Table | HvTable memory as list of maybe-initialised cells; ownership invariant over histories | proved | none |
| C220 | noise~ does not repeat for hours | Noise | NoiseProofs: the powers of 16807 modulo powers of two, by induction; states that differ give different samples within two vectors | proved | Reals |
| C221 | The samples of noise~ are independent | Noise | invariant: second differences of lanes are multiples of 2^32 | partial | Reals |
| C222 | Every sample position of noise~ has the full period | Noise | as C220 | partial | Reals |
| C223 | noise~ works without SIMD | Noise | overflow of x * 16807^3 | partial | Reals |
| C224 | lop~ follows its cutoff | Filter | FilterSpec; simulation of the flattened patch event by event | proved | Reals |
| C225 | lop~ has the right coefficient | Filter | error analysis of the quotient and product | proved | Reals |
| C226 | lop~ stays bounded whatever is sent to it | Filter | C224 and C163; clip of any float | proved | Reals |
| C227 | hip~ follows its cutoff | Filter | as C224 | proved | Reals |
| C228 | hip~ has the right coefficient | Filter | as C225 | proved | Reals |
| C229 | hip~ with a fixed cutoff stays bounded | Filter | invariant |w| (1 - k) <= 1.01 with rounding errors | proved | Reals |
| C23 | Tables always own the memory they claim | Table | HvTable memory as list of maybe-initialised cells; ownership invariant over histories | proved | none |
| C230 | hip~ stays bounded when its cutoff changes | Filter | induction: the state grows to 1000 | partial | Reals |
| C231 | bp~ follows cutoff and Q | Filter | as C224 | proved | Reals |
| C232 | bp~ is stable for cutoffs from 0 on | Filter | error analysis; monotony of rounding | proved | Reals |
| C233 | bp~ is stable for all cutoffs | Filter | error analysis; pow to within a millionth | partial | Reals |
| C234 | A parameter's default is within its limits | Param | cases of the arguments | proved | Reals |
| C235 | A @raw parameter's default is within its limits | Param | counterexample: @raw A 10 20 | partial | Reals |
| C236 | One word of @raw is read the same way every time | Param | a fold in which one element acts | proved | Reals |
| C237 | Several words of @raw are read the same way every time | Param | counterexample with two orders | partial | Reals |
| C238 | getParameterInfo lists every parameter once | Param | dictionary = permutation of the grouped names; insertion sort | proved | Reals |
| C239 | No parameter is lost | Param | counterexample: 1a and _1a | partial | Reals |
| C24 | Control table access stays in bounds | Table | HvTable memory as list of maybe-initialised cells; ownership invariant over histories | proved | none |
| C240 | The check of parameter names is exact | Param | induction over the list | proved | none |
| C241 | The names in a DPF plugin are different | Param | counterexample | partial | none |
| C242 | A DPF plugin's parameters keep their values | Param | invariant of the queue (C01) and induction over the history | proved | none |
| C243 | A DPF plugin's new context gets all values | Param | the queue from its start, record by record, against its size | proved | none |
| C244 | No value set by the host is lost | Param | induction: the queue is full | partial | none |
| C245 | Daisy and OWL print label and message | Hook | buffers with unwritten bytes; lengths | proved | none |
| C246 | Daisy and OWL print long messages | Hook | the buffer has no zero byte | partial | none |
| C247 | A DPF plugin prints short messages | Hook | as C245 | proved | none |
| C248 | A DPF plugin prints labels and long messages | Hook | as C246 | partial | none |
| C249 | A name means what is visible, nearest first | Scope | induction over the path to the root | proved | none |
| C25 | Vectorised one-sample delay equals the scalar one | Del1 | per-lane model of each build against the per-sample specification; induction over blocks | proved | none |
| C250 | A table name means one table | Scope | the registry in closed form, for every prefix of the reduction | proved | none |
| C251 | Every table is in the program | Scope | folds over dictionaries | proved | none |
| C252 | No table is lost | Scope | counterexample: 1a and _1a | partial | none |
| C253 | A patch fits a board if and only if its parameters do | Glue | first owner in closed form; the pruned list keeps all owners | proved | none |
| C254 | A Daisy input is read from its component | Glue | as C253 | proved | none |
| C255 | Parameters for different controls are all connected | Glue | insertion-ordered dictionary, keys distinct | proved | none |
| C256 | Of several parameters for one control the last is connected | Glue | induction over the dictionary from the end | proved | none |
| C257 | Every parameter is connected | Glue | counterexample: knob1 and ctrl | partial | none |
| C258 | The errors of the Daisy generator are justified | Glue | cases of the five passes | proved | none |
| C259 | A Daisy parameter in the wrong direction is reported | Glue | counterexamples on a board like Daisy Pod | partial | none |
| C26 | Vectorised sample-and-hold equals the scalar one | Del1 | per-lane model of each build against the per-sample specification; induction over blocks | proved | none |
| C260 | Aliases mean what the board says | Glue | cases of de_alias | proved | none |
| C261 | Unused components are left out, used ones are not | Glue | invariant of the backward loop: prefix and filtered suffix | proved | none |
| C262 | An output reaches its component | Glue | induction over the rows | proved | none |
| C263 | Different names have different hashes | Glue | two names found by a birthday search, checked by computation | partial | none |
| C264 | A CV output drives the channel it is named after | Glue | counterexample: env1_cv2 | partial | none |
| C265 | Sample rate and block size of a Daisy program | Glue | linear arithmetic | proved | none |
| C266 | An OWL wrapper is generated if limits and defaults allow it | Owl | rows of a port in closed form | proved | none |
| C267 | A receiver Channel-k is connected to the OWL parameter k | Owl | corollary of C266, for all patches | partial | none |
| C268 | Every OWL input gets its value before a block | Owl | macros of different keys are the row's own; induction over the receivers | proved | none |
| C269 | OWL values lie within their limits and begin with the default | Owl | rational arithmetic | proved | none |
| C27 | Interleaved rendering permutes samples correctly | Interleave | shuffle sequences as list permutations; induction over the frame count | proved | none |
| C270 | OWL ports that share a key | Owl | counterexamples | partial | none |
| C271 | An OWL output sets its parameter or button | Owl | as C268 | proved | none |
| C272 | OWL buttons send their limits | Owl | as C268 | proved | none |
| C273 | [system] answers with the patch's own figures | Sys | all messages by cases; the words differ in text and hash | proved | Reals |
| C274 | [system] is safe for every message | Sys | as C273 | partial | Reals |
| C275 | A table is asked for by name | Sys | counterexample; lookup of an unknown key | partial | Reals |
| C276 | [system] tells the time exactly | Sys | integers up to 2^24 are floats; counterexample 2^24+1 | partial | Reals |
| C277 | [print] calls the print hook once with the message's text | Sys | from C17 | proved | none |
| C278 | A table head object reports the head at that moment | Sys | induction over the history | proved | Reals |
| C28 | Vectorised recursive filters equal the difference equation | Biquad, Pole | vector code over an arbitrary commutative ring against the difference equation; ring, induction over blocks | proved | none |
| C29 | Constant-coefficient biquad equals the difference equation | Biquad | vector code over an arbitrary commutative ring against the difference equation; ring, induction over blocks | proved | none |
| C30 | The oscillator's output stays in [0,1) and its phase loop terminates below 2^24 | Phasor | Flocq floats, 32 bit phases; termination measure of the wrap loops, exactness lemmas | proved | Reals |
| C31 | Line ramps reach and hold the target | Line | per-lane counters and real-valued ramp; invariant over histories of messages and blocks | proved | Reals- |
| C32 | Signal objects never overwrite a buffer that is still needed | Graph | HeavyGraph ordering, buffer assignment, adder cascade and fma rewriting on a patch graph of unbounded size and depth; simulation against the dataflow semantics | proved | none |
| C33 | Signal objects are ordered sources first | Graph | HeavyGraph ordering, buffer assignment, adder cascade and fma rewriting on a patch graph of unbounded size and depth; simulation against the dataflow semantics | proved | none |
| C34 | Several signal connections into one inlet are summed | Rewrite | HeavyGraph ordering, buffer assignment, adder cascade and fma rewriting on a patch graph of unbounded size and depth; simulation against the dataflow semantics | proved | none |
| C35 | Fused multiply-add rewriting preserves the signal | Rewrite | HeavyGraph ordering, buffer assignment, adder cascade and fma rewriting on a patch graph of unbounded size and depth; simulation against the dataflow semantics | proved | none |
| C36 | A named message reaches exactly its receivers, in priority order | Recv | register / group / switch generation on names; list lemmas | proved | none |
| C37 | Switch-case sends each message to exactly one outlet, chosen by hash | Ctl | control objects on the message model; case analysis, list lemmas | proved | none |
| C38 | Slice outputs exactly the requested window | Ctl | control objects on the message model; case analysis, list lemmas | proved | none |
| C39 | Convolution equals the finite impulse response sum | Conv | ring buffer of inputs; invariant on head index and stored samples, sum over taps | proved | none |
| C40 | Envelope follower reports the weighted power of the last window at each hop | Env | sample buffer; invariant over blocks, exactness of the block rounding | proved | Reals |
| C41 | Trigger order is preserved | Flow | flattening, trigger expansion and C call tree on a control graph; simulation, induction on message depth | proved | none |
| C42 | Arguments of abstractions are substituted completely | Args | string replacement; induction over arguments | proved | none |
| C43 | Queued host messages keep their order and payload through process() | Host | records on top of the pipe of C01; refinement | proved | none |
| C44 | Sent messages are returned in order, with their destination and payload | Host | records on top of the pipe of C01; refinement | proved | none |
| C45 | The oscillator advances by its frequency every sample | Phasor | prefix sums in lanes, 32 bit phase arithmetic; induction over blocks | proved | Reals |
| C46 | Message feedback does not disturb the signal path | Graph | refuted: witness patch | partial | none |
| C47 | Subpatches are transparent for signals | Graph | same theorem as C32, subpatches nested to any depth | proved | none |
| C48 | Messages without symbols made by slice can be scheduled | Ctl | control objects on the message model; case analysis, induction over histories | proved | none |
| C49 | Pack outputs the latest value of every inlet | Ctl | control objects on the message model; case analysis, induction over histories | proved | none |
| C50 | Var, if and cast objects store, route and convert as documented | Ctl | control objects on the message model; case analysis, induction over histories | proved | none |
| C51 | Message boxes substitute their arguments | Ctl | control objects on the message model; case analysis, induction over histories | proved | none |
| C52 | Switch-case compares values | Ctl | control objects on the message model; case analysis, induction over histories | proved | none |
| C53 | Slice, pack and message boxes accept every message | Ctl | refuted: three messages | partial | none |
| C54 | Receiver names clash only by a leading underscore | Recv | names as byte lists; injectivity up to the underscore | proved | none |
| C55 | Arguments of Pd abstractions are substituted completely | Args | Pd argument substitution for every set iteration order | proved | none |
| C56 | Argument substitution does not depend on names, order or completeness | Args | refuted: witness names and patches | partial | none |
| C57 | Objects that feed themselves keep their wires | Flow | refuted: witness names and patches | partial | none |
| C58 | Envelope follower accepts every period | Env | refuted: concrete sizes and builds | partial | Reals |
| C59 | Convolution works for every size, table and build | Conv | refuted: concrete sizes and builds | partial | none |
| C60 | The pool does not leak when a message is freed under another size | Pool | the false remainder of an earlier property, refuted by a concrete witness computed by the kernel | partial | none |
| C61 | Splitting a render call does not change the result with bang~ | Process | the false remainder of an earlier property, refuted by a concrete witness computed by the kernel | partial | none |
| C62 | Messages with long texts are copied safely | Message | the false remainder of an earlier property, refuted by a concrete witness computed by the kernel | partial | none |
| C63 | Delay object: also in feedback and after flush | Delay | the false remainder of an earlier property, refuted by a concrete witness computed by the kernel | partial | none |
| C64 | Random numbers never lock up whatever the seed | Random | the false remainder of an earlier property, refuted by a concrete witness computed by the kernel | partial | Reals |
| C65 | Control arithmetic never traps | Binop | the false remainder of an earlier property, refuted by a concrete witness computed by the kernel | partial | Reals |
| C66 | Unipolar modulus stays below large divisors | Binop | the false remainder of an earlier property, refuted by a concrete witness computed by the kernel | partial | Reals |
| C67 | Resizing a table sets the requested length | Table | the false remainder of an earlier property, refuted by a concrete witness computed by the kernel | partial | none |
| C68 | Tables created with data own the memory they claim | Table | the false remainder of an earlier property, refuted by a concrete witness computed by the kernel | partial | none |
| C69 | Control table writes stay in bounds after resizes and switches | Table | the false remainder of an earlier property, refuted by a concrete witness computed by the kernel | partial | Reals |
| C70 | Vectorised one-sample delay is right on AVX | Del1 | the false remainder of an earlier property, refuted by a concrete witness computed by the kernel | partial | none |
| C71 | Vectorised sample-and-hold is right on NEON and AVX | Del1 | the false remainder of an earlier property, refuted by a concrete witness computed by the kernel | partial | none |
| C72 | Interleaved rendering is right for every build and length | Interleave | the false remainder of an earlier property, refuted by a concrete witness computed by the kernel | partial | none |
| C73 | Recursive filters are right on AVX | Pole | the false remainder of an earlier property, refuted by a concrete witness computed by the kernel | partial | none |
| C74 | The phase accumulator terminates for every message and frequency | Phasor | the false remainder of an earlier property, refuted by a concrete witness computed by the kernel | partial | Reals |
| C75 | Line ramps hold the target for ever | Line | the false remainder of an earlier property, refuted by a concrete witness computed by the kernel | partial | Reals- |
| C76 | Fused multiply-subtract is right on ARMv8 | Rewrite | the false remainder of an earlier property, refuted by a concrete witness computed by the kernel | partial | none |
| C77 | Reading sent messages copies only the message | Host | the false remainder of an earlier property, refuted by a concrete witness computed by the kernel | partial | none |
| C78 | The oscillator advances by its frequency in every build and at every frequency | Phasor | the false remainder of an earlier property, refuted by a concrete witness computed by the kernel | partial | Reals |
| C79 | Every subpatch is transparent for signals | Graph | the false remainder of an earlier property, refuted by a concrete witness computed by the kernel | partial | none |
| C80 | Messages with symbols made by slice can be scheduled | Ctl | the false remainder of an earlier property, refuted by a concrete witness computed by the kernel | partial | none |
| C81 | Switch-case never confuses values | Ctl | the false remainder of an earlier property, refuted by a concrete witness computed by the kernel | partial | none |
| C82 | Every receiver name stays addressable | Recv | the false remainder of an earlier property, refuted by a concrete witness computed by the kernel | partial | none |
| C83 | Control operators compute the operator in their name | BinopVal | as C20; value of each operator against real arithmetic, history induction | proved | Reals |
| C84 | Unary control operators compute their function | BinopVal | Flocq square root and rounding; library functions are parameters | proved | Reals |
| C85 | Recording into a table and playing it back is the identity | SigTab | signal readers and writers over the table model of C23; induction over blocks and histories | proved | none |
| C86 | The linear table reader and writer check their range | SigTab | signal readers and writers over the table model of C23; induction over blocks and histories | proved | none |
| C87 | The stoppable table reader never leaves the table | SigTab | signal readers and writers over the table model of C23; induction over blocks and histories | proved | Reals |
| C88 | tabplay~ plays the table once, then bangs, then is silent | SigTab | signal readers and writers over the table model of C23; induction over blocks and histories | proved | Reals |
| C89 | Random signal access to tables | SigTab | signal readers and writers over the table model of C23; induction over blocks and histories | proved | none |
| C90 | Signal table objects accept every message | SigTab | refuted: six message sequences | partial | Reals |
| C91 | A delay line delays by the delay asked for | DelayLine | both patches transcribed as an event machine with time, over C85; invariant relating writer, reader, pending events and table contents to the input history | proved | Reals |
| C92 | Every delay line works for every delay | DelayLine | refuted: five runs; the zero-length hang is proved for every number of steps | partial | Reals |
| C93 | Expressions are read as they are written | Expr | PEG parser with fuel; written forms as an inductive relation; mutual induction with follow sets | proved | none |
| C94 | Text that is not an expression is rejected | Expr | refuted: witness texts | partial | none |
| C95 | Comparisons have one precedence | Expr | refuted: witness texts | partial | none |
| C96 | The code of expr~ computes the expression | Expr | tree, allocator with arbitrary reuse choices, straight-line code run on abstract vectors; tree induction with live-buffer frame invariant | proved | none |
| C97 | expr~ from text to sound | Expr | C93 composed with C96 | proved | none |
| C98 | expr~ computes expressions of every size | Expr | refuted: witness expressions | partial | none |
| C99 | expr~ copies a lone variable or constant | Expr | refuted: witness expressions | partial | none |

## Assumptions of each theorem (Print Assumptions)

**Closed under the global context** (211):
`pipe_fifo_lossless`, `pipe_send_completes`, `pipe_any_size_refuted`, `pipe_any_size_corrupts_refuted`, `pipe_drained_accepts`, `pipe_drained_accepts_all_refuted`, `queue_refines_sorted_list`, `queue_pending_sorted`, `queue_ties_fifo`, `queue_clear_after_refuted`, `pool_messages_disjoint_intact`, `pool_never_exhausted`, `process_delivers_exactly_once_in_order`, `session_delivers_in_order`, `process_self_cancel_refuted`, `process_clock_wrap_order_refuted`, `process_clock_wrap_stuck_refuted`, `expr_tilde_unsupported_refuted`, `expr_tilde_calls_own_function`, `expr_variables_bound`, `expr_control_variables_refuted`, `expr_control_answers`, `operators_compute_what_the_patch_says`, `heavy_operators_compute_what_the_patch_says`, `operators_end_to_end`, `zero_factor_refuted`, `process_split`, `process_nodsp_split`, `hash_ascii_agree`, `hash_is_u32`, `hash_bang_refuted`, `hash_non_ascii_refuted`, `message_read_back`, `message_element_copied`, `message_negative_index_refuted`, `message_copy_deep`, `message_copy_allocates_enough`, `message_has_format`, `records_read`, `records_refuted`, `message_box_read`, `message_box_refuted`, `patch_is_read`, `message_text`, `gui_names_linked`, `remote_messages_linked`, `links_refuted`, `table_sizes_refuted`, `arguments_found`, `arguments_refuted`, `instances_have_their_own_number`, `recursion_refuted`, `receivers_in_pd_order`, `receiver_order_refuted`, `delay_fires_once`, `midi_bytes_sent`, `device_print`, `print_refuted`, `table_resize_usable`, `table_resize_scalar`, `table_owns_memory`, `tabread_in_bounds`, `tabwrite_boundary`, `tabwrite_in_bounds`, `name_check_exact`, `dpf_enumerators_clash_refuted`, `plugin_value_is_the_last`, `new_context_gets_all_values`, `automation_lost_refuted`, `print_hook_stays_in_its_buffer`, `print_hook_prints_label_and_message`, `print_hook_long_messages_refuted`, `dpf_print_hook_prints_the_message`, `dpf_print_hook_label_refuted`, `dpf_print_hook_long_messages_refuted`, `lookup_finds_the_visible`, `lookup_nearest_first`, `del1_sse_correct`, `del1_neon_correct`, `del1_scalar_correct`, `tables_loaded_iff_names_differ`, `table_name_means_one_table`, `table_dictionary_complete`, `table_lost_refuted`, `board_accepts_iff`, `input_reads_its_component`, `every_parameter_connected`, `last_name_wins`, `every_parameter_connected_refuted`, `board_errors`, `wrong_direction_reported_refuted`, `direction_never_tested`, `samphold_sse_correct`, `samphold_scalar_correct`, `alias_exact`, `alias_any_case`, `components_kept_iff_used`, `output_reaches_its_component`, `other_messages_change_nothing`, `names_told_apart_refuted`, `cv_channel_refuted`, `rate_and_block`, `owl_generated_iff`, `channel_names_refuted`, `owl_block_exact`, `owl_values_in_range`, `planar_rendering`, `interleaved_rendering`, `interleaved_bad_length`, `owl_shared_key_refuted`, `owl_send_exact`, `owl_buttons_exact`, `owl_other_buttons`, `print_calls_hook`, `print_without_hook`, `rpole_vector_correct`, `rpole_scalar_correct`, `cpole_vector_correct`, `cpole_scalar_correct`, `biquad_correct`, `biquad_k_correct`, `compiled_patch_computes_its_dataflow`, `signals_are_unique`, `ordering_terminates`, `ordering_sources_first`, `process_list_order`, `several_connections_are_summed`, `patch_has_signals`, `compiled_patch_computes_original`, `fused_product_has_one_reader`, `fused_patch_same_signals`, `named_message_reaches_receivers`, `unknown_name_ignored`, `send_reaches_receivers`, `priority_order_unique`, `switchcase_by_hash`, `slice_windows`, `convolution_is_fir`, `message_order_preserved`, `message_effects_unique`, `arguments_substituted`, `unset_variable_raises`, `host_messages_in_order`, `records_scheduled_in_order`, `sent_messages_returned`, `control_feedback_order_refuted`, `slice_size_without_symbols`, `pack_latest_values`, `var_stores_latest`, `var_spec_total`, `if_routes`, `cast_converts`, `message_box_substitutes`, `switchcase_by_value`, `pack_symbol_refuted`, `slice_negative_start_refuted`, `message_box_missing_argument_refuted`, `code_name_clash`, `pd_arguments_substituted`, `prefix_names_refuted`, `pd_prefix_references_refuted`, `self_connection_lost_refuted`, `self_feeding_compile_refuted`, `conv_longer_ring_refuted`, `conv_larger_table_refuted`, `conv_smaller_table_refuted`, `conv_avx_refuted`, `pool_never_exhausted_refuted`, `process_split_refuted`, `message_large_symbol_refuted`, `delay_clear_after_flush_feedback_refuted`, `delay_flush_breaks_queue_order_refuted`, `table_resize_length_refuted`, `table_resize_stale_refuted`, `table_resize_huge_refuted`, `table_data_overflow_refuted`, `table_final_data_resize_refuted`, `del1_avx_refuted`, `del1_avx_other_lanes_partial`, `samphold_neon_refuted`, `samphold_neon_partial`, `samphold_avx_refuted`, `interleaved_avx_stereo_does`, `interleaved_avx_stereo_refuted`, `interleaved_length_check_refuted`, `rpole_avx_partial`, `rpole_avx_refuted`, `cpole_avx_refuted`, `fms_armv8_sign_refuted`, `sent_message_overread_refuted`, `sent_message_exact_block_refuted`, `sent_symbol_stale_refuted`, `pass_through_subpatch_refuted`, `woven_subpatches_refuted`, `slice_symbol_size_refuted`, `switchcase_refuted`, `digit_names_collide_refuted`, `sigtab_record_play`, `sigtab_tables_sound`, `sigtab_linear_checked`, `sigtab_random_access`, `sigtab_writer_stop_refuted`, `sigtab_stoppable_write_refuted`, `sigtab_unknown_table_refuted`, `expr_parsed_as_written`, `expr_trailing_text_refuted`, `expr_comparison_precedence_refuted`, `expr_tilde_code_correct`, `expr_tilde_end_to_end`, `expr_tilde_many_buffers_refuted`, `expr_tilde_bare_refuted`

**`ClassicalDedekindReals.sig_forall_dec`, `FunctionalExtensionality.functional_extensionality_dep`** (10):
`phasor_sample_range`, `line_segment_shape`, `line_sse_neon`, `line_scalar`, `line_avx_calm`, `line_hold_refuted`, `line_scalar_overflow_refuted`, `line_restart_refuted`, `line_avx_overshoot_refuted`, `phasor_avx_prefix`

**`ClassicalDedekindReals.sig_forall_dec`, `ClassicalDedekindReals.sig_not_dec`, `Classical_Prop.classic`, `FunctionalExtensionality.functional_extensionality_dep`** (196):
`milliseconds_round_down`, `samples_round_trip`, `samples_round_trip_refuted`, `message_delays`, `message_delay_exact_refuted`, `recorder_in_bounds`, `recorder_records`, `recorder_whole_refuted`, `recorder_set_refuted`, `patch_runs_deterministic`, `moses_splits`, `spigot_gates`, `change_passes_changes`, `change_refuted`, `swap_swaps`, `int_truncates`, `clip_clips`, `tgl_toggles`, `notein_filters`, `midi_values_filtered`, `ctlin_filters`, `ctlin_zero_refuted`, `ctlin_channel_refuted`, `midi_notes_sent`, `midi_values_sent`, `midi_out_list_refuted`, `delay_delays`, `pipe_delays`, `metro_ticks`, `metro_steady`, `metro_period_refuted`, `metro_minus_zero_refuted`, `timer_measures`, `timer_refuted`, `until_counts`, `until_refuted`, `makenote_ends_notes`, `makenote_refuted`, `stripnote_strips`, `stripnote_refuted`, `clip_limits`, `clip_limits_refuted`, `clip_nan_bounded`, `wrap_fraction`, `wrap_below_one_refuted`, `abs_everywhere`, `division_by_zero`, `division_rounds`, `division_neon_close`, `division_neon_refuted`, `sqrt_positive`, `cos_close`, `osc_close`, `ftom_close`, `rmstodb_close`, `rmstodb_silence`, `logarithm_avx_refuted`, `comparison_scalar`, `comparison_simd_refuted`, `functions_scalar`, `functions_simd_refuted`, `tabread_in_table`, `tabread_truncates`, `tabread_rounds_refuted`, `tabread4_interpolates`, `tabread4_in_table`, `tabread4_one_refuted`, `lop_stays_bounded`, `sqrt_neon_refuted`, `plugin_midi_in`, `plugin_raw_in_refuted`, `plugin_realtime_in_refuted`, `plugin_midi_time`, `plugin_midi_time_refuted`, `polytouch_port_refuted`, `midi_range_refuted`, `notes_reach_device`, `raw_out_refuted`, `random_in_range`, `random_never_stuck`, `random_full_period`, `page_midi_in`, `page_midi_out`, `page_raw_refuted`, `page_raw_list`, `transport_follows_host`, `clock_keeps_time`, `clock_tempo_refuted`, `clock_phase_refuted`, `float_keeps_a_number`, `sliders_pass_numbers`, `number_boxes_pass_numbers`, `binop_defined_iff_safe`, `binop_history_defined`, `binop_zero_divisor`, `float_list_refuted`, `wrap_is_the_fraction`, `mtof_is_the_frequency`, `ftom_is_the_pitch`, `dbtorms_is_the_amplitude`, `dbtopow_is_the_power`, `rmstodb_is_the_level`, `powtodb_is_the_level`, `div_drops_the_remainder`, `midiin_reports`, `midirealtimein_reports`, `random_stays_below`, `random_repeats`, `trigger_right_to_left`, `trigger_number_refuted`, `unpack_distributes`, `pack_collects`, `int_div_rem_exact`, `mod_unipolar_exact`, `route_takes_the_first`, `route_refuted`, `select_takes_the_first`, `line_moves_in_steps`, `line_ramps_to_its_target`, `line_keeps_to_the_straight_line`, `line_arrives_in_time`, `line_arrives_in_time_refuted`, `page_real_time`, `noise_in_range`, `noise_period`, `noise_neighbours_refuted`, `noise_lane_refuted`, `noise_scalar_refuted`, `lop_follows_its_cutoff`, `lop_coefficient`, `lop_bounded_whatever_is_sent`, `hip_follows_its_cutoff`, `hip_coefficient`, `hip_stays_bounded`, `hip_stays_bounded_refuted`, `bp_follows_cutoff_and_q`, `bp_poles_in_the_circle`, `bp_poles_in_the_circle_refuted`, `parameter_default_within_limits`, `parameter_numbers_used`, `raw_default_outside_limits_refuted`, `one_raw_word_is_deterministic`, `raw_numbers_used`, `raw_words_order_refuted`, `parameter_info_complete`, `parameter_lost_refuted`, `system_answers`, `system_one_answer`, `system_stops_iff`, `system_any_message_refuted`, `table_needs_name_refuted`, `table_unknown_silent`, `system_time_exact`, `system_time_refuted`, `tabhead_reports`, `phasor_wrap_terminates_iff`, `phasor_wrap_result`, `phasor_phase_message`, `phasor_range`, `phasor_avx_range`, `phasor_k_avx_range`, `envelope_reports`, `phasor_vector_phase`, `phasor_scalar_phase`, `phasor_k_vector_phase`, `phasor_k_scalar_phase`, `envelope_overlap_refuted`, `random_seed_stuck_refuted`, `random_reseed_zero_refuted`, `random_reseed_negative_refuted`, `binop_mod_unipolar_trap_refuted`, `binop_huge_operand_refuted`, `mod_unipolar_large_refuted`, `tabwrite_stale_index_refuted`, `phasor_wrap_hangs_refuted`, `phasor_phase_integer_refuted`, `phasor_scalar_nyquist_refuted`, `phasor_builds_disagree_refuted`, `phasor_k_overflow_refuted`, `phasor_avx_wrap_refuted`, `phasor_avx_frequency_refuted`, `binop_computes`, `binop_history_values`, `binop_constant_values`, `unop_computes_value`, `sigtab_stoppable_in_bounds`, `sigtab_plays_once`, `sigtab_reader_wrap_refuted`, `sigtab_end_refuted`, `sigtab_no_bang_refuted`, `delay_line_delays`, `delay_too_long_refuted`, `delay_longer_refuted`, `delay_full_refuted`, `delay_fraction_refuted`, `delay_zero_length_refuted`

## What is modelled
(S = hvcc/generators/ir2c/static)
* S/HvLightPipe.c, S/HvMessageQueue.c, S/HvMessagePool.c, S/HvMessage.c (all functions used by the runtime),
  hash functions of S/HvUtils.c and hvcc/core/hv2ir/HeavyLangObject.py / HeavyObject.get_hash.
* templates/Heavy_NAME.cpp: process, processInline, processInlineInterleaved, scheduleMessageForReceiver;
  S/HeavyContext.cpp: sendMessageToReceiver and friends as records, scheduleMessageForObject, cancelMessage,
  getNextSentMessage, table accessors.
* S/HvControl{Delay,Random,Binop,Unop,Slice,Pack,Var,If,Cast,Tabread,Tabwrite}.c, generated switchcase and
  message box code (ControlSwitchcase.py, ControlMessage.py).
* S/HvTable.c, S/HvSignalTabread.*, S/HvSignalTabwrite.*, S/HvSignalDel1.*, S/HvSignalSamphold.*,
  S/HvSignalRPole.*, S/HvSignalCPole.*, S/HvSignalBiquad.*, S/HvSignalLine.*, S/HvSignalPhasor.*,
  S/HvSignalEnvelope.*, S/HvSignalConvolution.*, fused multiply in S/HvMath.h (sign only).
* hvcc/core/hv2ir: ordering (get_parent_order, __resolve_b, prepare), assign_signal_buffers, BufferPool,
  cascade_expansion, fma_replacement, group_control_receivers, remap of control connections, get_ir_on_message,
  argument resolution (HeavyGraph.resolve_arguments); hvcc/interpreters/pd2hv: argument substitution,
  trigger casts; hvcc/generators/ir2c: control call tree, receiver switch.
* libs/pd/delwrite~.pd, delread~.pd and tabwrite~.pd (hand transcribed event machine).
* hvcc/interpreters/pd2hv/PdBinopObject.validate_configuration, hvcc/core/hv2ir/HLangBinop.reduce,
  HLangVar.reduce and the loop of HeavyGraph.reduce (float signals only, one connection list, exceptions are
  `None`, objects other than operators and vars are taken as IR objects already).
* Message abstractions of libs/pd (PatchLibs.v): moses, spigot, change, swap, int, clip, tgl, delay, pipe, metro, timer,
  until, makenote, stripnote, wrap, nbx, sliders, floatatom, mtof, ftom, dbtorms, dbtopow, rmstodb, powtodb, div, random, midiin, midirealtimein, line, trigger, pack, unpack, route and select of any size, notein, polytouchin, bendin, touchin, pgmin, ctlin, noteout, polytouchout, ctlout,
  bendout, pgmout, touchout, and the abstractions they use.  Each .pd file is transcribed object by object with its
  connection list; PatchModel.v flattens nested patches and runs the objects' onMessage functions in the order of the
  generated call tree, with the message queue.
* Signal objects (SndModel.v): the operations of S/HvMath.h on AVX, SSE, NEON (ARMv7, ARMv8) and without SIMD, one lane at the
  level of 32 bit words; libs/pd/abs~, clip~, wrap~, sqrt~, cos~, osc~, ftom~, rmstodb~, tabread~, tabread4~, lop~,
  transcribed object by object, with the compiler's fusion of products and sums.
* Reading of Pd files (ParseModel.v): PdParser.py get_pd_line, split_line, __get_hv_args, graph_from_file, graph_from_canvas;
  PdMessageObject.__init__; PdGraph.add_object, is_abstraction_on_call_stack; the priorities of PdReceiveObject.
* MIDI in the wrappers (MidiModel.v): c2dpf/templates midiInput.cpp, midiOutput.cpp, hostTransportEvents.cpp and the print hook of
  HeavyDPF.cpp; HandleMidiSend and the print hook of c2daisy's HeavyDaisy.cpp (the print hook of HeavyOwl.hpp is the same);
  sendMidiIn and sendMidiOut of c2js's hv_worklet.js.
* Filters (FilterLibs.v): the message objects of lop~.pd, hip~.pd and bp~.pd as patches, their signal objects' inlets as outlets; the
  signal objects of hip~.pd with rzero~.pd and the recurrence of S/HvSignalRPole.h without SIMD.
* noise~ (NoiseModel.v): integer variables (S/HvSignalVar.c, .h), the integer product and conversion of S/HvMath.h, and noise~.pd as a
  machine of vectors (hand transcribed; the order read, multiply, write follows from its connections).
* S/HeavyContext.hpp: millisecondsToSamples, samplesToMilliseconds; the timestamp of sendMessageToReceiver.

* Parameters (ParamModel.v): the arguments of PdReceiveObject/PdSendObject and PdRaw, group_control_receivers, get_ir_receiver_dict,
  filter_extern, getParameterInfo, check_extern_name_conflicts, the size of the input queue, and the parameters of HeavyDPF.cpp
  (constructor, setParameterValue, getParameterValue, setOutputParameter, sampleRateChanged) on top of the pipe of PipeModel.v.

* Print hooks (HookModel.v): hvPrintHookFunc of DPF, printHook of Daisy, owlPrintHook of OWL, with buffers whose bytes may be unwritten.
* Scopes (ScopeModel.v): LocalVars.register_object/get_objects_for_name, __register_named_object, add_object (named objects),
  resolve_objects_for_name, HLangTable.reduce and what remove_object leaves registered, HIrTabread.reduce, get_ir_table_dict.
* Daisy glue (GlueModel.v): all of c2daisy/parameters.py but the display functions, sendHook of HeavyDaisy.cpp, rate and block size of c2daisy.py.
* OWL (OwlModel.v): make_jdata, the macros of HeavyOwlConstants.h, constructor, sendCallback, buttonChanged and processAudio of HeavyOwl.hpp.
* Runtime objects (SysModel.v): cSystem_onMessage, cPrint_onMessage, cTabhead_onMessage and the call ControlTabhead.py generates.

## Simplifications worth knowing
* Filters (C28, C29), line~ (C31), env~ (C40) and conv~ (C39) are proved over exact arithmetic (an abstract
  commutative ring, the reals, or an abstract operation with the stated order of additions), not over rounded
  floats.  Oscillators, control arithmetic, tables and delay lines use Flocq's binary32.
* Patches are finite graphs of unbounded size; object kinds are abstract functions from inputs to outputs.
* The delay line's clock is unbounded (the C clock wraps after 2^32 samples, see C10).
* Set iteration order and random object ids of the Python compiler are universally quantified where they matter.

* In PatchModel.v the calls of the generated C functions are put on a stack instead of being nested (no object reads its
  state after sending); the depth of the C stack (until nests one call per bang) is not bounded; hashes are computed
  from the texts; the only NaN encoding is a parameter; an inlet of a patch is fed from outside one message at a time.

* In SndModel.v the encoding of NaNs, NEON's reciprocal root instructions and the C library's functions are parameters; the
  reciprocal estimate is the table of the Arm manual; tables have no padding; code without SIMD is not contracted by
  the C compiler; the control objects that set inlets (table sizes, filter coefficients) are summarised.

* In ParseModel.v objects keep their class and arguments as text: the object classes' own checks, $-arguments (see C56) and
  the search for abstraction files are not part of it; the nesting of abstractions is a function from names to the names of
  the objects in the file; table sizes in scientific notation are not read; blank is ASCII white space.

* In MidiModel.v what undefined reads give is a parameter; the elements of MIDI messages are floats; the number of rounds of the
  clock's loop is bounded by a parameter (None: not enough).

* Parameters: Python's float() of a text is a function parameter; word characters, digits and upper case are those of ASCII; priorities
  of receivers are left out; a record in the queue is any 32 bytes; assertions of the context are off (release builds).

* Scopes: graphs are places in a tree; no object is static (Pd patches have no such annotation); a table's name has no spaces.

* Daisy glue: the texts made of the "get" and "set" templates are not modelled (a row holds the template itself); lower case is that of ASCII; the
  "bool" flags are left out; the board of the examples is cut down from pod.json and patch.json.

* OWL: numbers are rationals; a macro that is defined twice has its last value (a warning of the C preprocessor); the context and the MIDI
  messages are those of other models.

## Not modelled
* JSON/IR serialisation, jinja templates as text, wrapper generators (c2daisy, c2dpf,
  c2js, ...) apart from the functions listed above, the host SDKs; HvControlPrint, the table queries of HvControlSystem; the renaming of functions in control expr and the C compiler's reading of it; integer operations of HvMath.h other than add;
  floating point library functions (sinf, powf, ...), which are parameters; memory exhaustion; compiler optimisations.
* Weak memory behaviour below the fences.

## Findings (all proved as `_refuted` theorems unless marked)
* Pipe: records whose size is no multiple of 4 (symbols) overwrite unread data (C02).
* Queue: clearAfter leaves a dangling tail (C06); clock and order break at 2^32 samples (C10).
* Pool: symbol messages leak into smaller size classes until the pool is exhausted (C60).
* Hashes: "bang" and non-ASCII names differ between compiler and runtime (C12, C13).
* Messages: 16 bit size wraps (C62); slice forgets symbol sizes (C80), accepts negative starts (C53);
  pack cold symbol reads the wrong element (C53); getNextSentMessage over-reads and returns stale symbol
  pointers (C77).
* Delay: flush in feedback (C63). Random: seeds 0 and 4294967291 lock up (C64).
* Operators: unipolar modulus traps, huge operands are undefined behaviour (C65, C66).
* Tables: resize keeps a stale length, tables with data own less than they claim, stale write index
  (C67-C69); signal readers and writers: wrapped assertions, "stop" to the linear writer, a stoppable writer
  that never stops, unknown table names, rounded ends, missing bang (C90).
* AVX builds: one-sample delay, sample-and-hold, interleaving, recursive filters, line~ overshoot,
  oscillator wrap, convolution (C70-C75, C78, C59); NEON sample-and-hold (C71); ARMv8 multiply-subtract sign (C76).
* line~ holds its target only 2^31 samples (C75); phase messages from 2^24 hang (C74).
* Compiler: message feedback disturbs the signal order (C46), pass-through and woven subpatches (C79),
  self connections lost (C57), substitution of $1 inside $10 (C56), names "1" and "_1" collide (C82),
  switchcase confuses -0 / 0, "symbol" and hashes (C81).
* env~ overlapping memcpy for small periods (C58); conv~ sizes (C59).
* Delay lines: a delay beyond the length depends on when it is sent, the full length with the writer first
  is no delay, fractional delays depend on time, a zero-length line hangs the render call (C92).
* Parser: records that end with a backslash swallow the next one, ", f 10" at the end of a message is lost (C166); message boxes
  that begin with a semicolon (C168); names and messages for receivers in subpatches or from other outlets (C172); tables
  with other sizes than declared (C173); @hv_arg in broken lines or comments with a width (C175); abstractions that
  contain themselves (C177); 1000 receivers (C179).
* Wrappers: midiin of plugins (C181), realtime input (C182), frames of events (C184), polyphonic pressure on other ports (C186),
  values out of range (C187), midiout (C189, C192), clock with odd tempos and after a restart (C195, C196), long printed
  messages, labels in plugins (C198).
* Not proved, seen while reading: `sendMessageToReceiverV` leaves elements of unknown format letters
  uninitialised; cTabhead has no null check; group_control_receivers picks one element of a set;
  cSystem_onMessage asserts on short messages; a render call delivers bang~ in the next call.
* expr: text behind the longest readable prefix is dropped (C94), <= and < differ in precedence (C95), more than ten
  buffers overwrite live ones (C98), a lone variable or constant gives an unwritten outlet (C99), variable 0 reads
  outside the inputs (C100, C103).
* `*~ 0` removes its connections, so that the operators behind it silently disappear or not depending on the
  order in which objects were created (C106).
* Times: converting samples to ms and back loses a sample (C109); delays of host messages may be one sample
  short (C111).
* tabwrite~ stops up to a vector early (C114); "set" while recording overruns a smaller table, unknown names crash (C115).
* Message abstractions: change swallows the number whose encoding is the hash of "set" (C120); ctlin and controller 0
  (C128); lists at MIDI outputs (C131); metro ticks a sample early at 44.1 kHz (C135) and is started by -0 (C136); timer
  loses samples after 2^24 (C138); until never ends above 2^24 and ignores bang (C140); float sends whole lists (C200); t f is silent for bang (C207); route and select compare hashes: -0 is not 0, numbers are taken for words, the word symbol alone is over-read (C211); the ninth note of makenote
  fails an assertion (C142); stripnote forgets velocity 0 of lists (C144).
* Signal objects: NaN passes clip~ on NEON (C146), wrap~ reaches 1 (C148), 1/1 is not 1 on NEON (C151), logarithms stop AVX
  builds (C156), comparisons are NaNs with SIMD (C157), most functions stop SIMD builds (C158), tabread~ rounds on x86
  (C160), tabread4~ stops on tables of one sample (C162), the root of infinity on NEON (C164).
* noise~: neighbouring samples of a vector are linearly related (C221), lanes with short periods or silence (C222), signed overflow
  without SIMD (C223).
* line.pd: the target is sent at the first multiple of the grain after the time is over, not when it is over (C217).
* hip~ is not bounded when its cutoff changes (C230); bp~ is unstable for negative cutoffs (C233).
* `@raw name min max` without a default uses (max - min) / 2 instead of the middle (C235); several `@raw...` words are read in the order of
  a Python set, which changes from run to run (C237).
* Receivers named `1a` and `_1a` share a key; one parameter silently disappears (C239). An input and an output parameter of one name give a
  DPF plugin that does not compile, with no error from hvcc (C241).
* A DPF plugin with one parameter loses the 58th value set between two blocks (C244).
* The print hooks of Daisy and OWL leave a message of 63 or more characters (with its label) without an end (C246); that of DPF never prints
  the label, and prints bytes that were never written for long messages (C248).
* Tables named `1a` and `_1a` share a key; the second silently disappears (C252).
* Daisy: of two parameters that mean one control the first is silently not connected (C257); the test for wrong directions compares with
  strings that no component has (C259); the hash of `pitch_attack1` is that of `noisevolume` (C263); a CV output named `env1_cv2` drives
  channel one (C264).
* OWL: a patch with a receiver Channel-k cannot be generated (C267); an input and an output of one key share their limits, and of two inputs
  of one key the first is never sent anything (C270).
* [system]: the message `table` alone, or with a table's name only, reads past the end of the message (C274); a number whose bits are a
  table's hash names the table (C275); currentTime is a float and inexact after sample 2^24 (C276).
