{"id": "C01", "title": "Message pipe is a lossless FIFO under every interleaving", "statement": "Records whose byte size is a positive multiple of four that a producer thread writes into the message pipe (reserve, fill, commit) are read by the single consumer thread in commit order, each exactly once and byte for byte unchanged, and neither thread ever trips an assertion or touches memory outside the buffer.", "quantifier": "every buffer length, every sequence of record sizes and contents, every interleaving of the individual memory accesses of one producer and one consumer (sequentially consistent memory)", "why_tests_cant": "the number of interleavings of producer and consumer memory accesses and of wrap-around positions is unbounded", "anchors": ["hvcc/generators/ir2c/static/HvLightPipe.c:hLp_init,hLp_hasData,hLp_getWriteBuffer,hLp_produce,hLp_getReadBuffer,hLp_consume"]}
{"id": "C02", "title": "Message pipe stays lossless for records of any size", "statement": "The FIFO guarantee of C01 holds for every positive record size, including the odd sizes produced by symbol messages.", "quantifier": "every buffer length and every sequence of positive record sizes", "why_tests_cant": "the failure needs one particular alignment of the wrapped write position to the read position", "anchors": ["hvcc/generators/ir2c/static/HvLightPipe.c:hLp_getWriteBuffer,hLp_produce", "hvcc/generators/ir2c/static/HeavyContext.cpp:sendMessageToReceiver"]}
{"id": "C03", "title": "A drained pipe accepts any record that fits half the buffer, but not every record that fits the buffer", "statement": "Whenever the consumer has read everything, a reservation of n bytes succeeds if 2*(n+8) does not exceed the buffer length; a refused reservation changes nothing that is visible to the reader.", "quantifier": "every reachable pipe state and every requested size", "why_tests_cant": "depends on the position of the heads reached by an arbitrary history", "anchors": ["hvcc/generators/ir2c/static/HvLightPipe.c:hLp_getWriteBuffer"]}
{"id": "C04", "title": "Scheduled messages come out in timestamp order, first-come-first-served on ties", "statement": "After any sequence of schedule, cancel, take-next and clear operations the queue delivers exactly the messages that were scheduled and not cancelled, cleared or taken, in non-decreasing timestamp order; among equal timestamps the earlier scheduled one comes first.", "quantifier": "every sequence of queue operations, every timestamp and payload", "why_tests_cant": "the linked list and its recycled nodes have unboundedly many shapes", "anchors": ["hvcc/generators/ir2c/static/HvMessageQueue.c:mq_addMessage,mq_addMessageByTimestamp,mq_pop,mq_removeMessage,mq_clear,mq_getOrCreateNodeFromPool"]}
{"id": "C05", "title": "Cancelling a message removes exactly that message", "statement": "Cancelling removes from the schedule exactly the pending deliveries of that message object to that destination (or any destination when none is given), reports whether one was removed, and leaves every other pending message in its order.", "quantifier": "every queue history and every cancel argument", "why_tests_cant": "the position of the removed entry and the queue shape are arbitrary", "anchors": ["hvcc/generators/ir2c/static/HvMessageQueue.c:mq_removeMessage", "hvcc/generators/ir2c/static/HeavyContext.cpp:cancelMessage"]}
{"id": "C06", "title": "Clearing messages after a time keeps the earlier ones deliverable", "statement": "After clearing all messages at or after a timestamp, the queue holds exactly the earlier messages, in order, and stays usable.", "quantifier": "every queue content and every timestamp", "why_tests_cant": "needs all split positions of an arbitrary queue", "anchors": ["hvcc/generators/ir2c/static/HvMessageQueue.c:mq_clearAfter"]}
{"id": "C07", "title": "Live messages never share storage", "statement": "Two messages that are both held by the message pool occupy disjoint byte ranges inside the pool buffer, and adding or freeing one message never changes the bytes of another live one.", "quantifier": "every sequence of add and free operations with any message sizes", "why_tests_cant": "chunks are recycled through four free lists in arbitrary orders", "anchors": ["hvcc/generators/ir2c/static/HvMessagePool.c:mp_addMessage,mp_freeMessage,mp_messagelistForIndex"]}
{"id": "C08", "title": "A bounded number of live messages never exhausts the pool", "statement": "If a program alternately adds and frees messages so that the number of live messages stays bounded, then the pool never runs out, however long it runs.", "quantifier": "every unbounded sequence of add/free operations with bounded liveness per size class in which the size given when freeing is in the size class of the size given when adding; pools large enough for those bounds", "why_tests_cant": "the leak shows only after a number of operations that depends on the pool size", "anchors": ["hvcc/generators/ir2c/static/HvMessagePool.c:mp_addMessage,mp_freeMessage", "hvcc/generators/ir2c/static/HvMessage.c:msg_initWithSymbol,msg_setSymbol,msg_copyToBuffer"]}
{"id": "C09", "title": "Every host message is delivered exactly once, in time order, in the audio block that contains its timestamp", "statement": "During process(), each queued message whose timestamp lies before the end of the processed blocks is delivered exactly once, in timestamp order (ties in scheduling order), after all blocks that end at or before its timestamp and before the block that contains it; messages with later timestamps stay queued; messages scheduled during delivery are treated the same.", "quantifier": "every queue content, every number of frames, every behaviour of the message handlers that schedules messages not earlier than the current one", "why_tests_cant": "handlers may schedule unboundedly many further messages", "anchors": ["hvcc/generators/ir2c/templates/Heavy_NAME.cpp:process", "hvcc/generators/ir2c/static/HvMessageQueue.c"]}
{"id": "C10", "title": "Time keeps increasing for ever", "statement": "The order of delivery follows the order of the requested times no matter how long the patch has been running.", "quantifier": "every running time, including beyond 2^32 samples", "why_tests_cant": "a wrap needs more than 24 hours of audio", "anchors": ["hvcc/generators/ir2c/templates/Heavy_NAME.cpp:process", "hvcc/generators/ir2c/static/HvMessageQueue.c:mq_addMessageByTimestamp"]}
{"id": "C11", "title": "Splitting a render call does not change the result", "statement": "Rendering a+b frames in one call or a frames then b frames (both multiples of the vector width, no host messages in between) delivers the same messages before the same audio blocks and leaves the same pending messages and clock.", "quantifier": "all a (a multiple of the vector width), b, queue contents and handlers; patches without a bang~ receiver", "why_tests_cant": "ranges over all splits and all queue contents", "anchors": ["hvcc/generators/ir2c/templates/Heavy_NAME.cpp:process"]}
{"id": "C12", "title": "Compile-time and run-time name hashes agree", "statement": "For every ASCII name other than 'bang', the hash the compiler bakes into the generated code equals the hash the runtime computes for the same string, so a message sent by name reaches its receiver.", "quantifier": "every string", "why_tests_cant": "infinitely many strings", "anchors": ["hvcc/generators/ir2c/static/HvUtils.c:hv_string_to_hash", "hvcc/core/hv2ir/HeavyLangObject.py:get_hash", "hvcc/generators/ir2c/HeavyObject.py:get_hash"]}
{"id": "C13", "title": "Name hashes agree for non-ASCII names too", "statement": "The agreement of C12 holds for names containing any bytes.", "quantifier": "every byte string", "why_tests_cant": "infinitely many strings", "anchors": ["hvcc/generators/ir2c/static/HvUtils.c:hv_string_to_hash", "hvcc/core/hv2ir/HeavyLangObject.py:get_hash"]}
{"id": "C14", "title": "Message elements read back what was written", "statement": "After setting element i of a message to a bang, float, symbol or hash, reading element i yields that type and value, every other element and the timestamp are unchanged.", "quantifier": "every message length, element index and value", "why_tests_cant": "all combinations of elements and overwrites", "anchors": ["hvcc/generators/ir2c/static/HvMessage.c:msg_init,msg_setBang,msg_setFloat,msg_setHash,msg_setSymbol,msg_setElementToFrom"]}
{"id": "C15", "title": "Copying a message is deep and stays inside the declared size", "statement": "Copying a message to a buffer yields a message equal element for element, whose symbols live inside the copy, and never writes beyond the size that the source message reports.", "quantifier": "every message built through the API, of any number of elements, whose total size is below 2^16 bytes", "why_tests_cant": "the size bookkeeping depends on the order of set operations and string lengths", "anchors": ["hvcc/generators/ir2c/static/HvMessage.c:msg_copyToBuffer,msg_setSymbol,msg_initWithSymbol,msg_getSize"]}
{"id": "C16", "title": "Message format test matches the message exactly", "statement": "hasFormat returns true exactly when the format string has one letter per element and each letter names that element's type.", "quantifier": "every message and every format string", "why_tests_cant": "unbounded lengths", "anchors": ["hvcc/generators/ir2c/static/HvMessage.c:msg_hasFormat"]}
{"id": "C17", "title": "Message text form", "statement": "The printed form of a message is the printed forms of its elements separated by single spaces, and exactly the allocated number of bytes is written.", "quantifier": "every message", "why_tests_cant": "unbounded lengths", "anchors": ["hvcc/generators/ir2c/static/HvMessage.c:msg_toString"]}
{"id": "C18", "title": "Delay object: pending messages fire once after their delay and can be cleared or flushed", "statement": "Each message sent to a delay fires exactly once, delay samples after it arrived, unless a clear arrives first (then it never fires) or a flush arrives first (then it fires at the time of the flush); at most eight may be pending.", "quantifier": "every sequence of inlet messages, delay changes and timer expirations, when what is connected to the outlet does not send back into the same delay", "why_tests_cant": "unbounded histories of overlapping delays", "anchors": ["hvcc/generators/ir2c/static/HvControlDelay.c", "hvcc/generators/ir2c/ControlDelay.py"]}
{"id": "C19", "title": "Random numbers stay in range and never lock up", "statement": "Every value produced by the control random object lies in [0,1); with every seed but -5 the generator never reaches the absorbing state zero and runs through a period of 2^32-6 states.", "quantifier": "every seed and every number of steps", "why_tests_cant": "state space of 2^32 and unbounded runs", "anchors": ["hvcc/generators/ir2c/static/HvControlRandom.c"]}
{"id": "C20", "title": "Control arithmetic is defined exactly inside a known region", "statement": "Each binary control operation yields a value exactly when its operands satisfy a stated condition (bit operations: both operands convertible to int, shift counts 0 to 31, left shifts without overflow; integer quotient and remainder: divisor convertible, and either of magnitude below one or with a convertible dividend and not -2^31 / -1; unipolar modulus: divisor zero or both convertible, divisor of magnitude at least one and not -2^31 mod -1); in particular division and modulus by zero yield zero and all other operations are total; a history of operands inside the region never traps.", "quantifier": "every operation and every pair of floats", "why_tests_cant": "2^64 operand pairs", "anchors": ["hvcc/generators/ir2c/static/HvControlBinop.c"]}
{"id": "C21", "title": "Integer division and modulus follow their documented rules", "statement": "For integer-valued inputs within int range the integer operations compute truncation toward zero quotient and remainder, and the unipolar modulus is always in [0,|k|) for |k| <= 2^24.", "quantifier": "all integer operands", "why_tests_cant": "2^64 operand pairs", "anchors": ["hvcc/generators/ir2c/static/HvControlBinop.c"]}
{"id": "C22", "title": "Resizing a table keeps its data and pads with zeros", "statement": "After resizing a table its usable size is the requested length rounded up to whole vectors, the samples below both usable sizes are unchanged and any new samples are zero; in scalar builds the same holds for the length itself.", "quantifier": "every table obtained from the zeroing constructor, every old and new length below 2^30 floats, whether or not realloc returns an aligned block", "why_tests_cant": "all pairs of lengths", "anchors": ["hvcc/generators/ir2c/static/HvTable.c:hTable_resize"]}
{"id": "C23", "title": "Tables always own the memory they claim", "statement": "For a table created by the zeroing constructor, the usable region plus one vector lies inside the memory it owns and is initialised, after any history of resizes and mirrors, so that the mirror and vector reads stay in bounds.", "quantifier": "every length and every history of resizes and mirror messages below 2^30 floats", "why_tests_cant": "all lengths relative to the vector width", "anchors": ["hvcc/generators/ir2c/static/HvTable.c:hTable_init,hTable_initWithData,hTable_initWithFinalData,hTable_onMessage"]}
{"id": "C24", "title": "Control table access stays in bounds", "statement": "Reading a table at any index from a control message never touches memory outside the table, whatever sequence of table switches, resizes and indices precedes.  A write stores the value at the index and nothing else if the index is inside the table's memory at that moment, and is undefined otherwise; it is always inside in histories without resizes and without giving the writer another table.", "quantifier": "every index (including negative and huge floats) and every history", "why_tests_cant": "float to int edge cases and stale index histories", "anchors": ["hvcc/generators/ir2c/static/HvControlTabread.c", "hvcc/generators/ir2c/static/HvControlTabwrite.c"]}
{"id": "C25", "title": "Vectorised one-sample delay equals the scalar one", "statement": "In scalar, SSE and NEON builds the delay-by-one object outputs at every sample the input of the previous sample, across block boundaries.", "quantifier": "every input stream of any number of blocks and every history of clears", "why_tests_cant": "unbounded streams", "anchors": ["hvcc/generators/ir2c/static/HvSignalDel1.h"]}
{"id": "C26", "title": "Vectorised sample-and-hold equals the scalar one", "statement": "In scalar and SSE builds sample-and-hold outputs at every sample the most recent input whose trigger was set.", "quantifier": "every input and trigger stream", "why_tests_cant": "2^4 trigger patterns times unbounded streams", "anchors": ["hvcc/generators/ir2c/static/HvSignalSamphold.h"]}
{"id": "C27", "title": "Interleaved rendering permutes samples correctly", "statement": "Rendering interleaved audio is the same as de-interleaving the input, rendering, and interleaving the output; rendering planar audio passes each block of each channel through unchanged.", "quantifier": "every build, every channel count (except stereo output on AVX), every number of frames that is a multiple of the vector width, every patch and all sample values", "why_tests_cant": "all frame counts", "anchors": ["hvcc/generators/ir2c/templates/Heavy_NAME.cpp:processInlineInterleaved,processInline"]}
{"id": "C28", "title": "Vectorised recursive filters equal the difference equation", "statement": "In exact arithmetic each recursive filter (real pole, complex pole, biquad) computes at every sample the documented difference equation, across block boundaries.", "quantifier": "every coefficient and input stream; scalar, SSE and NEON builds, the biquad on AVX too", "why_tests_cant": "unbounded streams, all coefficients", "anchors": ["hvcc/generators/ir2c/static/HvSignalRPole.h", "hvcc/generators/ir2c/static/HvSignalCPole.h", "hvcc/generators/ir2c/static/HvSignalBiquad.h"]}
{"id": "C29", "title": "Constant-coefficient biquad equals the difference equation", "statement": "In exact arithmetic the constant coefficient biquad with its precomputed coefficient matrix outputs the direct-form difference equation for every coefficient set, including after coefficient changes.", "quantifier": "every coefficient set and input stream", "why_tests_cant": "unbounded streams", "anchors": ["hvcc/generators/ir2c/static/HvSignalBiquad.c", "hvcc/generators/ir2c/static/HvSignalBiquad.h"]}
{"id": "C30", "title": "The oscillator's output stays in [0,1) and its phase loop terminates below 2^24", "statement": "Every output sample of the oscillator is finite and in [0,1), whatever the history; the loop that wraps a phase message terminates exactly for |p| < 2^24+4 and then yields a phase in [0,1), which becomes the turn counter floor(p * 2^32).", "quantifier": "every history of frequency inputs (scalar builds: below half the sample rate; control rate: below half or, in vector builds, an eighth of it) and phase messages; every float phase", "why_tests_cant": "2^32 inputs times unbounded iteration", "anchors": ["hvcc/generators/ir2c/static/HvSignalPhasor.h", "hvcc/generators/ir2c/static/HvSignalPhasor.c"]}
{"id": "C31", "title": "Line ramps reach and hold the target", "statement": "After a ramp message the line output follows the straight line from the current value to the target over the requested number of samples and then holds the target; later messages start from the value reached.", "quantifier": "every history of blocks, ramps, jumps and stops in every build while no segment lasts longer than 2^31 samples (AVX: and no message arrives with 3 to 7 samples left); exact arithmetic", "why_tests_cant": "unbounded running time", "anchors": ["hvcc/generators/ir2c/static/HvSignalLine.c", "hvcc/generators/ir2c/static/HvSignalLine.h"]}
{"id": "C32", "title": "Signal objects never overwrite a buffer that is still needed", "statement": "With the buffers the compiler assigns, executing the ordered signal objects computes at every inlet the value its connected outlet produced: no buffer is reused while a later reader still needs it.", "quantifier": "every reduced patch without feedback (signal or message) and with something to process in every subpatch a signal goes through; every processing function of the objects", "why_tests_cant": "all graphs", "anchors": ["hvcc/core/hv2ir/BufferPool.py", "hvcc/core/hv2ir/HeavyIrObject.py:assign_signal_buffers", "hvcc/core/hv2ir/HeavyGraph.py:assign_signal_buffers"]}
{"id": "C33", "title": "Signal objects are ordered sources first", "statement": "In the generated process list every signal object comes after all signal objects that feed it and each reachable object occurs exactly once.", "quantifier": "every reduced patch without feedback (signal or message), nested to any depth", "why_tests_cant": "all graphs", "anchors": ["hvcc/core/hv2ir/HeavyIrObject.py:get_parent_order", "hvcc/core/hv2ir/HeavyGraph.py:order_signal_objects"]}
{"id": "C34", "title": "Several signal connections into one inlet are summed", "statement": "When several signals are connected to one inlet the compiled graph delivers their sum, each connection counted once.", "quantifier": "every number of connections and every signal values", "why_tests_cant": "all connection counts", "anchors": ["hvcc/core/hv2ir/HeavyGraph.py:cascade_expansion"]}
{"id": "C35", "title": "Fused multiply-add rewriting preserves the signal", "statement": "Replacing a multiply followed by an add or subtract with the fused object gives the same output in exact arithmetic and only happens when the product has no other reader.", "quantifier": "every patch and every commutative addition; every build, except patches with a subtraction on ARMv8 NEON", "why_tests_cant": "all graph contexts", "anchors": ["hvcc/core/hv2ir/HeavyGraph.py:fma_replacement"]}
{"id": "C36", "title": "A named message reaches exactly its receivers, in priority order", "statement": "A message sent to a name, by the host or by a send object, reaches the targets of every receiver object of that name, in decreasing priority (declaration order on ties), and of no other; messages for unknown names are ignored.", "quantifier": "every set of receivers that compiles and whose code names are distinct (C54), and every message", "why_tests_cant": "all receiver sets and priorities", "anchors": ["hvcc/core/hv2ir/HeavyGraph.py:group_control_receivers,get_ir_receiver_dict", "hvcc/core/hv2ir/HIrSend.py:get_ir_control_list", "hvcc/generators/ir2c/templates/Heavy_NAME.cpp:scheduleMessageForReceiver"]}
{"id": "C37", "title": "Switch-case sends each message to exactly one outlet, chosen by hash", "statement": "A message is sent to the outlet of the one case whose 32 bit key (the float's bits, the text's hash) equals the key of the first element, or of the second element when the first is the word symbol; when no case has that key it goes to the last outlet.", "quantifier": "every case list that compiles and every message with a selected element", "why_tests_cant": "all case lists and messages", "anchors": ["hvcc/generators/ir2c/ControlSwitchcase.py:get_C_impl", "hvcc/generators/ir2c/static/HvMessage.c:msg_getHash"]}
{"id": "C38", "title": "Slice outputs exactly the requested window", "statement": "A list on the left inlet is answered with the elements start, start+1, ... up to the requested number (all when that is not positive), or with a bang on the right outlet when no element remains; the other inlets set start and length; a non-negative start never reads outside the message.", "quantifier": "every history of messages, non-negative starts and lengths", "why_tests_cant": "all histories and lengths", "anchors": ["hvcc/generators/ir2c/static/HvControlSlice.c:cSlice_onMessage"]}
{"id": "C39", "title": "Convolution equals the finite impulse response sum", "statement": "The convolution object outputs, sample by sample, the sum of the coefficients (as they are in the table at that moment) times the most recent inputs, silence before the start, and never reads or writes outside its buffers.", "quantifier": "every coefficient table content and history of it, every input stream, every size argument and sequence of size messages before the first sample that leaves the ring as long as the (padded) coefficient table; builds without AVX; exact arithmetic", "why_tests_cant": "unbounded streams", "anchors": ["hvcc/generators/ir2c/static/HvSignalConvolution.c:sConv_init", "hvcc/generators/ir2c/static/HvSignalConvolution.c:sConv_onMessage", "hvcc/generators/ir2c/static/HvSignalConvolution.c:__hv_conv_f", "hvcc/generators/ir2c/static/HvSignalConvolution.c:sConv_kernel"]}
{"id": "C40", "title": "Envelope follower reports the weighted power of the last window at each hop", "statement": "The envelope object never reads or writes outside its buffers and, over a stream of any length, reports exactly after window, window + period, window + 2 period ... samples, each time the weighted sum of squares of the last window samples (before the conversion to decibels); window and period are the arguments rounded up to whole vectors, the period at most the window.", "quantifier": "every window argument up to 2^24 samples and period argument for which the period used is at least half of the window, every weight table, every input stream, all four builds; exact arithmetic", "why_tests_cant": "unbounded running time", "anchors": ["hvcc/generators/ir2c/static/HvSignalEnvelope.c:sEnv_init", "hvcc/generators/ir2c/static/HvSignalEnvelope.c:sEnv_process", "hvcc/generators/ir2c/static/HvSignalEnvelope.c:sEnv_sendMessage"]}
{"id": "C41", "title": "Trigger order is preserved", "statement": "A message delivered to an object of the drawn patch and the same message delivered to the generated code have the same effects: the same objects receive the same messages in the same order, depth first, in the order of the wires of an outlet, triggers firing from right to left and converting each outlet, through any nesting of subpatches, and the states end up equal.", "quantifier": "every patch of message objects, triggers and subpatches in which no object feeds itself through bare wires and pass-through trigger outlets alone; every behaviour of the objects; every order in which the compiler visits them; every message and state", "why_tests_cant": "all patches, messages and histories", "anchors": ["hvcc/core/hv2ir/HLangSequence.py:reduce", "hvcc/core/hv2ir/HeavyGraph.py:reduce", "hvcc/core/hv2ir/HeavyGraph.py:update_connection", "hvcc/core/hv2ir/HeavyIrObject.py:get_ir_control_list", "hvcc/generators/ir2c/HeavyObject.py:get_C_impl"]}
{"id": "C42", "title": "Arguments of abstractions are substituted completely", "statement": "Instantiating a heavy abstraction replaces every $-reference in every argument text by the value of that argument; a text that is just one reference keeps the type of the value; other entries are unchanged and none is lost.  A reference to an argument that does not exist stops the compilation.", "quantifier": "every argument dictionary whose names are not prefixes of each other, every dictionary of argument texts", "why_tests_cant": "all names, values and texts", "anchors": ["hvcc/core/hv2ir/HeavyGraph.py:resolve_arguments"]}
{"id": "C43", "title": "Queued host messages keep their order and payload through process()", "statement": "Messages sent by the host before process() are handed to the scheduler in the order they were sent with the timestamp computed at the time of sending.", "quantifier": "every sequence of host messages that the queue accepted", "why_tests_cant": "all histories", "anchors": ["hvcc/generators/ir2c/static/HeavyContext.cpp:sendMessageToReceiver", "hvcc/generators/ir2c/templates/Heavy_NAME.cpp:process"]}
{"id": "C44", "title": "Sent messages are returned in order, with their destination and payload", "statement": "getNextSentMessage returns the sent messages in order with their destination and payload; it fails an assertion only if the caller's buffer is smaller than the record of the next message (8 bytes more than the message), and leaves the queue's memory only if the record ends within the last 8 bytes of it.", "quantifier": "every output queue size and history of sends and reads", "why_tests_cant": "depends on record position at buffer end", "anchors": ["hvcc/generators/ir2c/static/HeavyContext.cpp:getNextSentMessage,defaultSendHook"]}
{"id": "C45", "title": "The oscillator advances by its frequency every sample", "statement": "The oscillator's phase is a 32 bit turn counter: each sample advances it by frequency*2^32/samplerate (converted to an integer), modulo one turn, whatever the block size; the output is its top 23 bits exactly; phase and frequency messages change only what they name.", "quantifier": "every sequence of frequency inputs, phase and frequency messages and blocks; scalar, SSE and NEON builds; control rate: frequencies below half (scalar) or an eighth (vector) of the sample rate", "why_tests_cant": "unbounded running time, all float inputs, build dependent vector code", "anchors": ["hvcc/generators/ir2c/static/HvSignalPhasor.h:__hv_phasor_f,__hv_phasor_k_f", "hvcc/generators/ir2c/static/HvSignalPhasor.c:sPhasor_k_updateFrequency,sPhasor_k_updatePhase"]}
{"id": "C46", "title": "Message feedback does not disturb the signal path", "statement": "In a patch whose signal connections form no cycle every signal object reads what its sources produce, even when messages lead from a later object back to an earlier one.", "quantifier": "every patch with control feedback", "why_tests_cant": "all graphs", "anchors": ["hvcc/core/hv2ir/HeavyIrObject.py:get_parent_order", "hvcc/core/hv2ir/HeavyGraph.py:order_signal_objects"]}
{"id": "C47", "title": "Subpatches are transparent for signals", "statement": "Moving objects into a subpatch and connecting them through its inlets and outlets does not change the signals: the compiled code computes the data flow of the patch.", "quantifier": "every nesting of a patch whose subpatches contain a signal object and do not feed back into each other", "why_tests_cant": "all graphs", "anchors": ["hvcc/core/hv2ir/HeavyGraph.py:does_process_signal,order_signal_objects,assign_signal_buffers"]}
{"id": "C48", "title": "Messages without symbols made by slice can be scheduled", "statement": "The message a slice object outputs reports the bytes it needs, so that scheduling it for later copies it without overrunning the pool chunk.", "quantifier": "every sliced message whose window holds no symbols", "why_tests_cant": "all messages", "anchors": ["hvcc/generators/ir2c/static/HvControlSlice.c:cSlice_onMessage", "hvcc/generators/ir2c/static/HvMessagePool.c:mp_addMessage"]}
{"id": "C49", "title": "Pack outputs the latest value of every inlet", "statement": "Each message on the first inlet of a pack object outputs one message with the latest value given to every inlet (numbers and hashes unchanged, symbols on the first inlet as hashes, bangs keep the old value) and the incoming timestamp.", "quantifier": "every history of messages without symbols on the right inlets", "why_tests_cant": "all histories", "anchors": ["hvcc/generators/ir2c/static/HvControlPack.c:cPack_init,cPack_onMessage"]}
{"id": "C50", "title": "Var, if and cast objects store, route and convert as documented", "statement": "A var object outputs its stored value on a bang and otherwise stores (and, on the left inlet, forwards) its input; an if object routes by the last number on its right inlet; the casts output the bang, float or symbol form of the first element; the timestamp is kept.", "quantifier": "every history of messages", "why_tests_cant": "all histories", "anchors": ["hvcc/generators/ir2c/static/HvControlVar.c", "hvcc/generators/ir2c/static/HvControlIf.c", "hvcc/generators/ir2c/static/HvControlCast.c"]}
{"id": "C51", "title": "Message boxes substitute their arguments", "statement": "A message box outputs one message per comma separated part, in order, each $k replaced by element k of the incoming message, with the incoming timestamp and a reported size that covers it.", "quantifier": "every message box and every incoming message that has all referenced elements", "why_tests_cant": "all boxes and messages", "anchors": ["hvcc/generators/ir2c/ControlMessage.py:get_C_impl", "hvcc/generators/ir2c/static/HvMessage.c:msg_setElementToFrom"]}
{"id": "C52", "title": "Switch-case compares values", "statement": "The case selected is the one whose value equals the message element: equal numbers, equal texts, and nothing else.", "quantifier": "every case list and every message whose first element does not by accident share the 32 bit key of a case that does not name it (and no case is the word bang unless a bang is sent)", "why_tests_cant": "hash collisions and special values", "anchors": ["hvcc/generators/ir2c/ControlSwitchcase.py:get_C_impl", "hvcc/generators/ir2c/static/HvMessage.c:msg_getHash"]}
{"id": "C53", "title": "Slice, pack and message boxes accept every message", "statement": "A symbol on a right inlet of pack is stored like a number; a negative slice start is harmless; a message box never fails on an incoming message that is too short.", "quantifier": "every history of messages", "why_tests_cant": "all histories", "anchors": ["hvcc/generators/ir2c/static/HvControlPack.c:cPack_onMessage", "hvcc/generators/ir2c/ControlMessage.py:get_C_impl"]}
{"id": "C54", "title": "Receiver names clash only by a leading underscore", "statement": "Receivers with different names get the same name in the generated code only if one is the other with an underscore in front.", "quantifier": "every set of receiver names", "why_tests_cant": "all names", "anchors": ["hvcc/core/hv2ir/HeavyGraph.py:get_ir_receiver_dict"]}
{"id": "C55", "title": "Arguments of Pd abstractions are substituted completely", "statement": "Instantiating a Pd abstraction replaces every $n in every word by the n-th creation argument, else by its declared default, else by 0, whatever the iteration order of Python sets.", "quantifier": "every word in which no reference is a prefix of another ($1 and $10), every argument list", "why_tests_cant": "all words, arguments and set orders", "anchors": ["hvcc/interpreters/pd2hv/PdParser.py:__resolve_object_args"]}
{"id": "C56", "title": "Argument substitution does not depend on names, order or completeness", "statement": "A reference is replaced by its own argument also when another argument's name is a prefix of its name, and an argument text with an unset variable is dropped in favour of the default as the source comment says.", "quantifier": "every argument dictionary and text", "why_tests_cant": "all names, including names that are prefixes of each other", "anchors": ["hvcc/core/hv2ir/HeavyGraph.py:resolve_arguments", "hvcc/interpreters/pd2hv/PdParser.py:__resolve_object_args"]}
{"id": "C57", "title": "Objects that feed themselves keep their wires", "statement": "A message wire from an object to itself, directly or through a pass-through trigger outlet, is compiled like every other wire, whatever the order of the objects in the patch.", "quantifier": "every patch", "why_tests_cant": "all patches and object orders", "anchors": ["hvcc/core/hv2ir/HeavyLangObject.py:add_connection", "hvcc/core/hv2ir/HeavyGraph.py:update_connection"]}
{"id": "C58", "title": "Envelope follower accepts every period", "statement": "The envelope object's behaviour is defined for periods shorter than half of the window too.", "quantifier": "every window, every period, every input stream", "why_tests_cant": "all arguments and unbounded running time", "anchors": ["hvcc/generators/ir2c/static/HvSignalEnvelope.c:sEnv_sendMessage"]}
{"id": "C59", "title": "Convolution works for every size, table and build", "statement": "The convolution object also works with a ring longer than the filter, after another table has been selected, and in AVX builds.", "quantifier": "every size, every table switch, every build", "why_tests_cant": "all sizes and histories", "anchors": ["hvcc/generators/ir2c/static/HvSignalConvolution.c:__hv_conv_f", "hvcc/generators/ir2c/static/HvSignalConvolution.c:sConv_onMessage"]}
{"id": "C60", "title": "The pool does not leak when a message is freed under another size", "statement": "The same when a message is freed with a size of another class than the one it was added with (as happens to messages converted by the cast object).", "quantifier": "every sequence of add/free operations with bounded liveness", "why_tests_cant": "the leak shows only after a number of operations that depends on the pool size", "anchors": ["hvcc/generators/ir2c/static/HvMessagePool.c:mp_addMessage,mp_freeMessage", "hvcc/generators/ir2c/static/HvMessage.c:msg_initWithSymbol,msg_setSymbol,msg_copyToBuffer"]}
{"id": "C61", "title": "Splitting a render call does not change the result with bang~", "statement": "The same for patches that contain bang~.", "quantifier": "all a, b, queue contents and handlers", "why_tests_cant": "ranges over all splits and all queue contents", "anchors": ["hvcc/generators/ir2c/templates/Heavy_NAME.cpp:process"]}
{"id": "C62", "title": "Messages with long texts are copied safely", "statement": "Copying also stays inside the reported size when the texts exceed 2^16 bytes.", "quantifier": "every message", "why_tests_cant": "the size bookkeeping depends on the order of set operations and string lengths", "anchors": ["hvcc/generators/ir2c/static/HvMessage.c:msg_copyToBuffer,msg_setSymbol,msg_initWithSymbol,msg_getSize"]}
{"id": "C63", "title": "Delay object: also in feedback and after flush", "statement": "The same when the outlet feeds back into the delay, and a flush leaves the queue sorted.", "quantifier": "every history and every patch around the delay", "why_tests_cant": "unbounded histories of overlapping delays", "anchors": ["hvcc/generators/ir2c/static/HvControlDelay.c", "hvcc/generators/ir2c/ControlDelay.py"]}
{"id": "C64", "title": "Random numbers never lock up whatever the seed", "statement": "The generator never locks up, for every seed the compiler may choose and every seed message.", "quantifier": "every seed and seed message", "why_tests_cant": "state space of 2^32 and unbounded runs", "anchors": ["hvcc/generators/ir2c/static/HvControlRandom.c"]}
{"id": "C65", "title": "Control arithmetic never traps", "statement": "Every binary control operation on every pair of float inputs yields a value.", "quantifier": "every pair of inputs", "why_tests_cant": "2^64 operand pairs", "anchors": ["hvcc/generators/ir2c/static/HvControlBinop.c"]}
{"id": "C66", "title": "Unipolar modulus stays below large divisors", "statement": "The unipolar modulus is in [0,|k|) for divisors above 2^24 too.", "quantifier": "all integer operands", "why_tests_cant": "2^64 operand pairs", "anchors": ["hvcc/generators/ir2c/static/HvControlBinop.c"]}
{"id": "C67", "title": "Resizing a table sets the requested length", "statement": "After resizing, the table's length is the requested length and all samples beyond the old length are zero, in every build and for every length.", "quantifier": "every old and new length", "why_tests_cant": "all pairs of lengths", "anchors": ["hvcc/generators/ir2c/static/HvTable.c:hTable_resize"]}
{"id": "C68", "title": "Tables created with data own the memory they claim", "statement": "The same for tables created with initial data.", "quantifier": "every length and both other constructors", "why_tests_cant": "all lengths relative to the vector width", "anchors": ["hvcc/generators/ir2c/static/HvTable.c:hTable_init,hTable_initWithData,hTable_initWithFinalData,hTable_onMessage"]}
{"id": "C69", "title": "Control table writes stay in bounds after resizes and switches", "statement": "Writing never touches memory outside the table, whatever sequence of table switches and resizes precedes.", "quantifier": "every history", "why_tests_cant": "float to int edge cases and stale index histories", "anchors": ["hvcc/generators/ir2c/static/HvControlTabread.c", "hvcc/generators/ir2c/static/HvControlTabwrite.c"]}
{"id": "C70", "title": "Vectorised one-sample delay is right on AVX", "statement": "The same for AVX builds.", "quantifier": "every input stream", "why_tests_cant": "unbounded streams", "anchors": ["hvcc/generators/ir2c/static/HvSignalDel1.h"]}
{"id": "C71", "title": "Vectorised sample-and-hold is right on NEON and AVX", "statement": "The same for NEON and AVX builds.", "quantifier": "every input and trigger stream", "why_tests_cant": "2^4 trigger patterns times unbounded streams", "anchors": ["hvcc/generators/ir2c/static/HvSignalSamphold.h"]}
{"id": "C72", "title": "Interleaved rendering is right for every build and length", "statement": "The same for stereo output on AVX, and other lengths are refused.", "quantifier": "every build and number of frames", "why_tests_cant": "all frame counts", "anchors": ["hvcc/generators/ir2c/templates/Heavy_NAME.cpp:processInlineInterleaved,processInline"]}
{"id": "C73", "title": "Recursive filters are right on AVX", "statement": "The same for both poles in AVX builds.", "quantifier": "every coefficient and input stream", "why_tests_cant": "unbounded streams, all coefficients", "anchors": ["hvcc/generators/ir2c/static/HvSignalRPole.h", "hvcc/generators/ir2c/static/HvSignalCPole.h", "hvcc/generators/ir2c/static/HvSignalBiquad.h"]}
{"id": "C74", "title": "The phase accumulator terminates for every message and frequency", "statement": "Every phase message is processed in finite time and every conversion of phases and frequencies is defined.", "quantifier": "every float frequency input and phase", "why_tests_cant": "2^32 inputs times unbounded iteration", "anchors": ["hvcc/generators/ir2c/static/HvSignalPhasor.h", "hvcc/generators/ir2c/static/HvSignalPhasor.c"]}
{"id": "C75", "title": "Line ramps hold the target for ever", "statement": "The target is held for ever and ramps can be interrupted at any moment.", "quantifier": "every history", "why_tests_cant": "unbounded running time", "anchors": ["hvcc/generators/ir2c/static/HvSignalLine.c", "hvcc/generators/ir2c/static/HvSignalLine.h"]}
{"id": "C76", "title": "Fused multiply-subtract is right on ARMv8", "statement": "The same for subtraction on ARMv8 NEON.", "quantifier": "every patch containing the pattern", "why_tests_cant": "all graph contexts", "anchors": ["hvcc/core/hv2ir/HeavyGraph.py:fma_replacement"]}
{"id": "C77", "title": "Reading sent messages copies only the message", "statement": "getNextSentMessage needs a buffer of the size of the message, never reads outside the output queue, and what it returns stays valid.", "quantifier": "every output queue history", "why_tests_cant": "depends on record position at buffer end", "anchors": ["hvcc/generators/ir2c/static/HeavyContext.cpp:getNextSentMessage,defaultSendHook"]}
{"id": "C78", "title": "The oscillator advances by its frequency in every build and at every frequency", "statement": "The same for AVX builds and for control rate frequencies up to half the sample rate, identically in all builds.", "quantifier": "every sequence of inputs, messages and blocks", "why_tests_cant": "unbounded running time, all float inputs, build dependent vector code", "anchors": ["hvcc/generators/ir2c/static/HvSignalPhasor.h:__hv_phasor_f,__hv_phasor_k_f", "hvcc/generators/ir2c/static/HvSignalPhasor.c:sPhasor_k_updateFrequency,sPhasor_k_updatePhase"]}
{"id": "C79", "title": "Every subpatch is transparent for signals", "statement": "The same whatever the subpatches contain and however they are connected.", "quantifier": "every nesting of a patch", "why_tests_cant": "all graphs", "anchors": ["hvcc/core/hv2ir/HeavyGraph.py:does_process_signal,order_signal_objects,assign_signal_buffers"]}
{"id": "C80", "title": "Messages with symbols made by slice can be scheduled", "statement": "The same for windows with symbols.", "quantifier": "every sliced message", "why_tests_cant": "all messages", "anchors": ["hvcc/generators/ir2c/static/HvControlSlice.c:cSlice_onMessage", "hvcc/generators/ir2c/static/HvMessagePool.c:mp_addMessage"]}
{"id": "C81", "title": "Switch-case never confuses values", "statement": "The same for every element.", "quantifier": "every case list and every message", "why_tests_cant": "hash collisions and special values", "anchors": ["hvcc/generators/ir2c/ControlSwitchcase.py:get_C_impl", "hvcc/generators/ir2c/static/HvMessage.c:msg_getHash"]}
{"id": "C82", "title": "Every receiver name stays addressable", "statement": "Receivers with different names stay different in the generated code, so that a message sent to a name is never dropped because another receiver exists.", "quantifier": "every set of receiver names", "why_tests_cant": "all names", "anchors": ["hvcc/core/hv2ir/HeavyGraph.py:get_ir_receiver_dict"]}
{"id": "C83", "title": "Control operators compute the operator in their name", "statement": "For finite operands a control operator object answers the correctly rounded sum, difference, product or quotient, the truncated integer quotient, remainder, shift or bitwise combination, the truth value of the comparison, or the larger/smaller operand, with zero for the undefined cases; over a history every number on the left inlet is answered once, in order, combined with the operand most recently received.", "quantifier": "all 24 operators, all finite single precision operands, every history of messages on both inlets", "why_tests_cant": "2^64 operand pairs per operator and unbounded histories", "anchors": ["hvcc/generators/ir2c/static/HvControlBinop.c:cBinop_perform_op", "hvcc/generators/ir2c/static/HvControlBinop.c:cBinop_onMessage", "hvcc/generators/ir2c/static/HvControlBinop.c:cBinop_k_onMessage"]}
{"id": "C84", "title": "Unary control operators compute their function", "statement": "A unary control operator answers each number with exactly one number: the absolute value, correctly rounded square root, ceiling, floor or the nearest integer (halves away from zero), the scaled logarithm, with zero for square roots and logarithms of non-positive numbers; the remaining functions are the C library's.", "quantifier": "all 21 operators, all finite single precision operands", "why_tests_cant": "2^32 operands per operator", "anchors": ["hvcc/generators/ir2c/static/HvControlUnop.c:cUnop_onMessage"]}
{"id": "C85", "title": "Recording into a table and playing it back is the identity", "statement": "Whatever vectors of signal are written with the linear table writer from a vector-aligned start that fits the table, reading the same stretch with the linear table reader returns them sample for sample; the rest of the table is unchanged and the table's write position is the end of the recording.", "quantifier": "all tables, SIMD widths, aligned starts and recordings that fit", "why_tests_cant": "table sizes, contents and lengths of recordings are unbounded", "anchors": ["hvcc/generators/ir2c/static/HvSignalTabwrite.h:__hv_tabwrite_f", "hvcc/generators/ir2c/static/HvSignalTabread.h:__hv_tabread_f"]}
{"id": "C86", "title": "The linear table reader and writer check their range", "statement": "For every position below 2^32 - N the linear table reader and writer stop the program by an assertion exactly when the vector does not fit, and otherwise read or write exactly that vector.", "quantifier": "all tables, positions and vectors", "why_tests_cant": "all positions", "anchors": ["hvcc/generators/ir2c/static/HvSignalTabwrite.h:__hv_tabwrite_f", "hvcc/generators/ir2c/static/HvSignalTabread.h:__hv_tabread_f"]}
{"id": "C87", "title": "The stoppable table reader never leaves the table", "statement": "Whatever bangs, positions, stops, end positions and table changes the stoppable table reader gets, interleaved with blocks in any order, no block reads outside of the table's memory, no assertion fails and every block is a full vector.", "quantifier": "every history of messages, table changes and blocks", "why_tests_cant": "unbounded histories", "anchors": ["hvcc/generators/ir2c/static/HvSignalTabread.h:__hv_tabread_stoppable_f", "hvcc/generators/ir2c/static/HvSignalTabread.c:sTabread_onMessage"]}
{"id": "C88", "title": "tabplay~ plays the table once, then bangs, then is silent", "statement": "After a bang or a position the reader plays the table from the vector containing the position to the end, then sends exactly one bang, then silence for ever; the start position is reported.", "quantifier": "all tables, positions and play lengths", "why_tests_cant": "all tables and positions", "anchors": ["hvcc/generators/ir2c/static/HvSignalTabread.h:__hv_tabread_stoppable_f", "hvcc/generators/ir2c/static/HvSignalTabread.c:sTabread_onMessage"]}
{"id": "C89", "title": "Random signal access to tables", "statement": "Reading a table at a vector of indices answers every lane with its cell; writing stores every lane, the last lane winning for equal indices, and leaves all other cells alone; indices outside the table stop the program (except writes in the plain C build, which do not check).", "quantifier": "all tables, index and value vectors", "why_tests_cant": "all index vectors", "anchors": ["hvcc/generators/ir2c/static/HvSignalTabread.h:__hv_tabread_if", "hvcc/generators/ir2c/static/HvSignalTabwrite.h:__hv_tabwrite_if"]}
{"id": "C90", "title": "Signal table objects accept every message", "statement": "No message to a signal table reader or writer makes the signal code leave the table's memory; playing ends exactly at the end asked for, with a bang.", "quantifier": "all messages", "why_tests_cant": "all messages and tables", "anchors": ["hvcc/generators/ir2c/static/HvSignalTabread.c:sTabread_onMessage", "hvcc/generators/ir2c/static/HvSignalTabwrite.c:sTabwrite_onMessage", "hvcc/generators/ir2c/static/HvSignalTabread.h:__hv_tabread_f", "hvcc/generators/ir2c/static/HvSignalTabwrite.h:__hv_tabwrite_stoppable_f"]}
{"id": "C91", "title": "A delay line delays by the delay asked for", "statement": "A delwrite~/delread~ pair outputs its input delayed by the delay in force, rounded up to whole vectors and at least one vector, for every line length, input and sequence of delay times (whole samples, within the line), for as long as it runs; nothing fails.", "quantifier": "all line lengths below 2^24, inputs, sequences and arrival times of delay messages, both orders of reader and writer", "why_tests_cant": "inputs and run times are unbounded; wrap-arounds of reader and writer interleave with messages in every way", "anchors": ["hvcc/interpreters/pd2hv/libs/pd/delwrite~.pd", "hvcc/interpreters/pd2hv/libs/pd/delread~.pd", "hvcc/generators/ir2c/static/HvSignalTabread.h:__hv_tabread_f", "hvcc/generators/ir2c/static/HvSignalTabwrite.h:__hv_tabwrite_f", "hvcc/generators/ir2c/static/HvTable.c:hTable_onMessage"]}
{"id": "C92", "title": "Every delay line works for every delay", "statement": "A delwrite~/delread~ pair of any length delays by any delay sent to it: up to the full length of the line, longer delays are limited to it, fractions are rounded consistently.", "quantifier": "all line lengths and delays", "why_tests_cant": "all delays at all times", "anchors": ["hvcc/interpreters/pd2hv/libs/pd/delwrite~.pd", "hvcc/interpreters/pd2hv/libs/pd/delread~.pd"]}
{"id": "C93", "title": "Expressions are read as they are written", "statement": "However an expression of expr or expr~ is written - any blanks between tokens, any redundant parentheses, any mix and nesting of C's unary and binary operators, the documented functions with one to three arguments, variables and decimal constants - the compiler reads exactly that expression, with C's precedences and left associativity (comparisons of comparisons in parentheses).", "quantifier": "all expressions of any size and all ways of writing them", "why_tests_cant": "expressions are unbounded and the grammar backtracks", "anchors": ["hvcc/generators/ir2c/expr/expr_arpeggio_grammar.py:expr", "hvcc/generators/ir2c/expr/expr_arpeggio_parser.py:ExprArpeggioParser.parse_to_ast"]}
{"id": "C94", "title": "Text that is not an expression is rejected", "statement": "The compiler reports an error for every text that is not an expression instead of compiling something else.", "quantifier": "all texts", "why_tests_cant": "texts are unbounded", "anchors": ["hvcc/generators/ir2c/expr/expr_arpeggio_grammar.py:expr"]}
{"id": "C95", "title": "Comparisons have one precedence", "statement": "As in C and Pd, chained comparisons without parentheses associate to the left whatever comparison operators are mixed.", "quantifier": "all chains of comparisons", "why_tests_cant": "chains are unbounded", "anchors": ["hvcc/generators/ir2c/expr/expr_arpeggio_grammar.py:gtlte,gtlt"]}
{"id": "C96", "title": "The code of expr~ computes the expression", "statement": "For every expression built from operators and functions that needs at most ten buffers at the same time, the generated vector code writes exactly the expression's value to the outlet: every operand is computed before it is used, no intermediate result is overwritten while it is needed, operators get their operands in order, unary minus is 0 - x, the inlets are the variables' numbers; only declared buffers are used, and exactly as many as are needed at once are declared. This holds whichever free buffer is picked for reuse.", "quantifier": "all expression trees, all choices of free buffers, all semantics of the vector functions, all buffer contents", "why_tests_cant": "trees and reuse choices are unbounded", "anchors": ["hvcc/generators/ir2c/expr/expr_c_writer.py:ExprCWriter._to_c_simd,BufferAllocator", "hvcc/generators/ir2c/SignalExpr.py:get_C_obj_impl_code"]}
{"id": "C97", "title": "expr~ from text to sound", "statement": "The code generated for the text of an expr~ object writes the value of the expression as written (C93) to the outlet.", "quantifier": "all texts of all expressions that need at most ten buffers", "why_tests_cant": "texts and trees are unbounded", "anchors": ["hvcc/generators/ir2c/expr/expr_c_writer.py:ExprCWriter", "hvcc/generators/ir2c/expr/expr_arpeggio_parser.py:ExprArpeggioParser.parse_to_ast"]}
{"id": "C98", "title": "expr~ computes expressions of every size", "statement": "The guarantee of C96 holds for every number of buffers.", "quantifier": "all expression trees", "why_tests_cant": "trees are unbounded", "anchors": ["hvcc/generators/ir2c/expr/expr_c_writer.py:ExprCWriter._to_c_simd"]}
{"id": "C99", "title": "expr~ copies a lone variable or constant", "statement": "An expr~ that consists of a variable or a constant outputs it.", "quantifier": "all inputs", "why_tests_cant": "all inputs", "anchors": ["hvcc/generators/ir2c/expr/expr_c_writer.py:ExprCWriter._to_c_simd", "hvcc/generators/ir2c/SignalExpr.py:get_C_obj_impl_code"]}
{"id": "C100", "title": "expr~ accepts whatever its parser accepts", "statement": "Every expression that the parser accepts compiles to code that reads only its inlets.", "quantifier": "all expressions", "why_tests_cant": "expressions are unbounded", "anchors": ["hvcc/generators/ir2c/expr/expr_c_writer.py:ExprCWriter._bind_var_node,ExprOpMap", "hvcc/generators/ir2c/expr/expr_arpeggio_grammar.py:f_name,var"]}
{"id": "C101", "title": "Every expr~ of a patch runs its own expression", "statement": "In a patch with any number of expr~ objects, in any processing order, each object calls the function generated from its own expression.", "quantifier": "all numbers and orders of expr~ objects", "why_tests_cant": "patches are unbounded", "anchors": ["hvcc/generators/ir2c/SignalExpr.py:get_C_process,get_C_obj_header_code,get_C_class_header_code", "hvcc/generators/ir2c/ir2c.py:compile"]}
{"id": "C102", "title": "Variables of a control expr are bound by number", "statement": "In the C text of a control expr every $f and $i variable (numbered from 1) is replaced by the argument of its number with its type, and all other text is unchanged, also when the name of one variable starts the name of another ($f1 and $f11) and when variables repeat.", "quantifier": "all texts with any number of variables", "why_tests_cant": "texts are unbounded; replacement order matters", "anchors": ["hvcc/generators/ir2c/ControlExpr.py:bind_expr,var_n"]}
{"id": "C103", "title": "A control expr takes every variable of Pd", "statement": "Variables of every documented kind and number of a control expr are bound or reported.", "quantifier": "all variables", "why_tests_cant": "all variable names", "anchors": ["hvcc/generators/ir2c/ControlExpr.py:bind_expr,var_n", "hvcc/interpreters/pd2hv/PdExprObject.py:PdExprObject"]}
{"id": "C104", "title": "A control expr answers with the latest values", "statement": "A control expr answers every message at its first inlet exactly once, at the message's time, with its function applied to the latest value received for each variable (0 before the first): lists at the first inlet set the variables of their numbers, a message that starts with a bang sets nothing, messages at other inlets only store. Nothing is written outside of the variables.", "quantifier": "all histories of messages of any length on inlets 0-99", "why_tests_cant": "unbounded histories", "anchors": ["hvcc/generators/ir2c/static/HvControlExpr.c:cExpr_onMessage,cExpr_init"]}
{"id": "C105", "title": "Binary signal operators compute what the patch says", "statement": "For every patch with any number of binary signal operators (+~ -~ *~ /~ max~ min~ pow~), nested and connected in any way without feedback, with signals, messages or nothing at their inlets, with or without argument (but no *~ with constant 0): translation and reduction succeed, no operator is left, and the signals computed are ones the patch describes - each operator combines the sum of the signals (else the last message, at first 0) at its left inlet with the sum of the signals (else the last message, at first its argument) at its right inlet - whatever order the operators are reduced in. Composed with the rewritings, ordering and buffers: the output channels get those signals.", "quantifier": "all patches, sizes, message histories, reduction orders, sample types and operators with the laws x+0=x, x-0=x, x*1=x, x/1=x, x*(-1)=-x", "why_tests_cant": "patches and histories are unbounded", "anchors": ["hvcc/interpreters/pd2hv/PdBinopObject.py:validate_configuration,convert_ctrl_to_sig_connections_at_inlet", "hvcc/core/hv2ir/HLangBinop.py:reduce", "hvcc/core/hv2ir/HLangVar.py:reduce", "hvcc/core/hv2ir/HeavyGraph.py:reduce"]}
{"id": "C106", "title": "Multiplying by a constant 0 only silences its own output", "statement": "The guarantee of C105 also holds for patches with *~ and a constant 0.", "quantifier": "all patches", "why_tests_cant": "patches are unbounded", "anchors": ["hvcc/core/hv2ir/HLangBinop.py:reduce"]}
{"id": "C107", "title": "Times in milliseconds are rounded down to whole samples", "statement": "With a sample rate that is a whole number below 2^27, hv_millisecondsToSamples(ms) - and with it the delay set by a message at the right inlet of delay/pipe/metro-like objects - is exactly ms*rate/1000 rounded down, for every float ms whose result fits 32 bits; negative numbers and NaN give 0.", "quantifier": "all whole sample rates below 2^27, all floats", "why_tests_cant": "2^27 * 2^32 combinations, floating-point rounding", "anchors": ["hvcc/generators/ir2c/static/HeavyContext.hpp:millisecondsToSamples", "hvcc/generators/ir2c/static/HvControlDelay.c:cDelay_onMessage"]}
{"id": "C108", "title": "Converting samples to milliseconds and back loses at most one sample", "statement": "hv_millisecondsToSamples(hv_samplesToMilliseconds(n)) is n or n-1 for every n up to 2^23.", "quantifier": "all whole sample rates below 2^27, all n up to 2^23", "why_tests_cant": "2^50 combinations, floating-point rounding", "anchors": ["hvcc/generators/ir2c/static/HeavyContext.hpp:millisecondsToSamples,samplesToMilliseconds"]}
{"id": "C109", "title": "Converting samples to milliseconds and back gives the same number", "statement": "hv_millisecondsToSamples(hv_samplesToMilliseconds(n)) is n.", "quantifier": "all sample rates, all n up to 2^23", "why_tests_cant": "2^50 combinations, floating-point rounding", "anchors": ["hvcc/generators/ir2c/static/HeavyContext.hpp:millisecondsToSamples,samplesToMilliseconds"]}
{"id": "C110", "title": "The delay of a message sent by the host is respected", "statement": "hv_sendMessageToReceiver with a delay of d ms stamps the message with the start of the next block plus d*rate/1000 samples, rounded down, up to a relative error of 1/(4*10^15); a longer delay never gives an earlier time; whole milliseconds at a rate that is a multiple of 1000 are exact; negative delays and NaN stop at the assertion.", "quantifier": "all sample rates from 1 to 10^9, all double delays whose result fits 32 bits", "why_tests_cant": "2^128 combinations, floating-point rounding", "anchors": ["hvcc/generators/ir2c/static/HeavyContext.cpp:sendMessageToReceiver"]}
{"id": "C111", "title": "The delay of a message sent by the host is rounded down exactly", "statement": "hv_sendMessageToReceiver with a delay of d ms stamps the message with the start of the next block plus floor(d*rate/1000) samples.", "quantifier": "all whole sample rates, all delays", "why_tests_cant": "2^128 combinations, floating-point rounding", "anchors": ["hvcc/generators/ir2c/static/HeavyContext.cpp:sendMessageToReceiver"]}
{"id": "C112", "title": "tabwrite~ never writes outside its table", "statement": "Whatever start (with any number up to 2^31, NaN included), stop and bang messages arrive, at whatever times, and whatever the input is: tabwrite~ only writes inside its table's memory, no assertion fails, every block ends.", "quantifier": "all tables up to 2^21 cells, vector widths, whole sample rates up to 2^20, message histories, inputs", "why_tests_cant": "the stop time is computed in floating point from the position; histories are unbounded", "anchors": ["hvcc/interpreters/pd2hv/libs/pd/tabwrite~.pd", "hvcc/generators/ir2c/static/HvSignalTabwrite.h:__hv_tabwrite_stoppable_f", "hvcc/generators/ir2c/static/HvSignalTabwrite.c:sTabwrite_onMessage", "hvcc/generators/ir2c/static/HvControlDelay.c:cDelay_onMessage"]}
{"id": "C113", "title": "tabwrite~ records its input from the start position to the end", "statement": "After start h in a block (the block's last message, not late) the input is stored from cell h on without a gap, starting with that block; recording ends by itself when less than one vector is missing or less than one vector too much is written; no other cell changes; nothing is recorded afterwards.", "quantifier": "all tables, positions, vector widths, sample rates, earlier histories, inputs", "why_tests_cant": "histories and inputs are unbounded", "anchors": ["hvcc/interpreters/pd2hv/libs/pd/tabwrite~.pd", "hvcc/generators/ir2c/static/HvSignalTabwrite.h:__hv_tabwrite_stoppable_f"]}
{"id": "C114", "title": "tabwrite~ fills the whole table", "statement": "After start 0 and enough blocks every cell of the table holds a recorded sample.", "quantifier": "all tables and sample rates", "why_tests_cant": "the stop time is rounded in floating point", "anchors": ["hvcc/interpreters/pd2hv/libs/pd/tabwrite~.pd"]}
{"id": "C115", "title": "tabwrite~ can be given another table", "statement": "\"set\" to the name of another table makes tabwrite~ record into that table; an unknown name does no harm.", "quantifier": "all tables, names, histories", "why_tests_cant": "histories are unbounded", "anchors": ["hvcc/interpreters/pd2hv/libs/pd/tabwrite~.pd", "hvcc/generators/ir2c/static/HvSignalTabwrite.c:sTabwrite_onMessage"]}
{"id": "C116", "title": "Message objects always do the same with the same messages", "statement": "What a message abstraction of libs/pd sends (times, outlets, values) is determined by the messages it receives and their times.", "quantifier": "all the modelled abstractions, all histories", "why_tests_cant": "histories are unbounded", "anchors": ["hvcc/interpreters/pd2hv/libs/pd/*.pd", "hvcc/core/hv2ir/HeavyGraph.py:get_ir_on_message"]}
{"id": "C117", "title": "moses splits numbers at its threshold", "statement": "A number at the left inlet leaves at the right outlet if it is at least the threshold, otherwise at the left one; the right inlet sets the threshold.", "quantifier": "all arguments, all histories of numbers", "why_tests_cant": "histories are unbounded", "anchors": ["hvcc/interpreters/pd2hv/libs/pd/moses.pd"]}
{"id": "C118", "title": "spigot passes messages while its gate is open", "statement": "Every message at the left inlet is passed on unchanged if the last number at the right inlet (or the argument) is not 0, otherwise nothing is sent.", "quantifier": "all arguments, messages, histories", "why_tests_cant": "histories are unbounded", "anchors": ["hvcc/interpreters/pd2hv/libs/pd/spigot.pd", "hvcc/generators/ir2c/static/HvControlIf.c:cIf_onMessage"]}
{"id": "C119", "title": "change passes a number on only if it differs from the previous one", "statement": "A number is passed on iff it differs from the last one; bang repeats the last one; set replaces it silently. Numbers whose encoding is the hash of set or symbol are excluded.", "quantifier": "all arguments and histories", "why_tests_cant": "histories are unbounded", "anchors": ["hvcc/interpreters/pd2hv/libs/pd/change.pd"]}
{"id": "C120", "title": "change passes every changed number on", "statement": "Every number that differs from the last one is passed on.", "quantifier": "all numbers", "why_tests_cant": "2^32 numbers", "anchors": ["hvcc/interpreters/pd2hv/libs/pd/change.pd", "hvcc/generators/ir2c/ControlSwitchcase.py:get_C_impl", "hvcc/generators/ir2c/static/HvMessage.c:msg_getHash"]}
{"id": "C121", "title": "swap exchanges its inlets", "statement": "A number x at the left inlet sends x to the right outlet, then the number of the right inlet to the left outlet; bang repeats.", "quantifier": "all arguments and histories", "why_tests_cant": "histories are unbounded", "anchors": ["hvcc/interpreters/pd2hv/libs/pd/swap.pd"]}
{"id": "C122", "title": "int drops the fraction", "statement": "int sends the number rounded towards zero; bang repeats; the right inlet only stores.", "quantifier": "all numbers and histories", "why_tests_cant": "2^32 numbers, unbounded histories", "anchors": ["hvcc/interpreters/pd2hv/libs/pd/int.pd", "hvcc/interpreters/pd2hv/libs/pd/i.pd"]}
{"id": "C123", "title": "clip keeps numbers within its bounds", "statement": "clip sends the number, or the bound it exceeds; the other inlets set the bounds.", "quantifier": "all histories with finite numbers and ordered bounds", "why_tests_cant": "histories are unbounded", "anchors": ["hvcc/interpreters/pd2hv/libs/pd/clip.pd"]}
{"id": "C124", "title": "A toggle switches between 0 and 1", "statement": "bang sends 0 if the toggle is on (its last number is not 0) and 1 otherwise; a number is passed on and is the new state.", "quantifier": "all histories", "why_tests_cant": "histories are unbounded", "anchors": ["hvcc/interpreters/pd2hv/libs/pd/tgl.pd"]}
{"id": "C125", "title": "notein and polytouchin report the messages of their channel", "statement": "Without argument (0) every message, with channel k those of channel k, leave as velocity, then pitch; the channel (from 1 on) of every message is sent first.", "quantifier": "all channels, all histories of MIDI messages", "why_tests_cant": "histories are unbounded", "anchors": ["hvcc/interpreters/pd2hv/libs/pd/notein.pd", "hvcc/interpreters/pd2hv/libs/pd/polytouchin.pd"]}
{"id": "C126", "title": "bendin, touchin and pgmin report the messages of their channel", "statement": "Without argument (0) every message, with channel k those of channel k, are reported: channel (from 1 on), then value; programs count from 1.", "quantifier": "all channels, all histories of MIDI messages", "why_tests_cant": "histories are unbounded", "anchors": ["hvcc/interpreters/pd2hv/libs/pd/bendin.pd", "hvcc/interpreters/pd2hv/libs/pd/touchin.pd", "hvcc/interpreters/pd2hv/libs/pd/pgmin.pd"]}
{"id": "C127", "title": "ctlin reports the controllers it is asked for", "statement": "Without arguments every message with controller and channel, with a controller its values with the channel, with controller and channel its values on this channel. (Controller argument and controllers are not 0.)", "quantifier": "all arguments, all histories of MIDI messages", "why_tests_cant": "histories are unbounded", "anchors": ["hvcc/interpreters/pd2hv/libs/pd/ctlin.pd"]}
{"id": "C128", "title": "ctlin treats controller 0 like the others", "statement": "ctlin without arguments reports controller 0 as such; ctlin 0 k only reports messages of channel k.", "quantifier": "all channels and values", "why_tests_cant": "all combinations of arguments and messages", "anchors": ["hvcc/interpreters/pd2hv/libs/pd/ctlin.pd"]}
{"id": "C129", "title": "noteout, polytouchout and ctlout send what their inlets hold", "statement": "A number at the left inlet sends this number, the number of the middle inlet and the channel (from 0 on in the message); the other inlets only store.", "quantifier": "all arguments and histories", "why_tests_cant": "histories are unbounded", "anchors": ["hvcc/interpreters/pd2hv/libs/pd/noteout.pd", "hvcc/interpreters/pd2hv/libs/pd/polytouchout.pd", "hvcc/interpreters/pd2hv/libs/pd/ctlout.pd"]}
{"id": "C130", "title": "bendout, pgmout and touchout send what their inlets hold", "statement": "A whole number at the left inlet is sent with the channel: bends from -8192 to 8191 as 0 to 16383, programs from 1 on as 0 on, channel pressure as it is.", "quantifier": "all arguments and histories of whole numbers", "why_tests_cant": "histories are unbounded", "anchors": ["hvcc/interpreters/pd2hv/libs/pd/bendout.pd", "hvcc/interpreters/pd2hv/libs/pd/pgmout.pd", "hvcc/interpreters/pd2hv/libs/pd/touchout.pd"]}
{"id": "C131", "title": "MIDI output objects distribute a list over their inlets", "statement": "A list at the left inlet of noteout, bendout etc. has the effect of one number per inlet.", "quantifier": "all lists", "why_tests_cant": "all combinations of numbers", "anchors": ["hvcc/interpreters/pd2hv/libs/pd/noteout.pd", "hvcc/interpreters/pd2hv/libs/pd/bendout.pd"]}
{"id": "C132", "title": "delay sends one bang after its time", "statement": "bang or a number (which also sets the time) sends a bang after floor(ms*rate/1000) samples unless another one or stop comes before; the right inlet sets the time of the next one.", "quantifier": "all whole sample rates, all histories of messages and times", "why_tests_cant": "histories are unbounded", "anchors": ["hvcc/interpreters/pd2hv/libs/pd/delay.pd", "hvcc/generators/ir2c/static/HvControlDelay.c:cDelay_onMessage"]}
{"id": "C133", "title": "pipe delays every message", "statement": "Every message is sent again after the time in force when it came, in order of time; at most eight messages wait.", "quantifier": "all whole sample rates, messages, histories", "why_tests_cant": "histories are unbounded", "anchors": ["hvcc/interpreters/pd2hv/libs/pd/pipe.pd", "hvcc/generators/ir2c/static/HvControlDelay.c:cDelay_onMessage"]}
{"id": "C134", "title": "metro sends bangs at equal distances", "statement": "bang or a number other than 0 sends a bang at once and then one every period until 0 or stop; a new period holds from the next bang on. At sample rates that are multiples of 1000 the period of n ms is exactly n*rate/1000 samples.", "quantifier": "all sample rates, periods, histories", "why_tests_cant": "histories are unbounded", "anchors": ["hvcc/interpreters/pd2hv/libs/pd/metro.pd"]}
{"id": "C135", "title": "The period of metro is the number of milliseconds asked for", "statement": "n ms that are a whole number of samples are exactly this number of samples.", "quantifier": "all sample rates and periods", "why_tests_cant": "floating-point rounding", "anchors": ["hvcc/interpreters/pd2hv/libs/pd/metro.pd"]}
{"id": "C136", "title": "0 stops metro", "statement": "A number that is equal to 0 stops metro.", "quantifier": "all numbers", "why_tests_cant": "2^32 numbers", "anchors": ["hvcc/interpreters/pd2hv/libs/pd/metro.pd", "hvcc/generators/ir2c/ControlSwitchcase.py:get_C_impl"]}
{"id": "C137", "title": "timer measures the time since it was started", "statement": "The right inlet sends the milliseconds since the last bang at the left inlet, correctly rounded (rates that are multiples of 1000; up to 2^24 samples after the start of the patch).", "quantifier": "all such rates, times and histories", "why_tests_cant": "histories are unbounded, floating-point rounding", "anchors": ["hvcc/interpreters/pd2hv/libs/pd/timer.pd", "hvcc/generators/ir2c/static/HvControlSystem.c:cSystem_onMessage"]}
{"id": "C138", "title": "timer works at any time", "statement": "The milliseconds since the start are correctly rounded, however long the patch has been running.", "quantifier": "all times", "why_tests_cant": "2^32 times", "anchors": ["hvcc/interpreters/pd2hv/libs/pd/timer.pd", "hvcc/generators/ir2c/static/HvControlSystem.c:cSystem_onMessage"]}
{"id": "C139", "title": "until sends as many bangs as it is told", "statement": "A number x up to 2^24 causes exactly trunc(x) bangs (none below 1), all at the same time.", "quantifier": "all such numbers, all histories", "why_tests_cant": "loops of any length", "anchors": ["hvcc/interpreters/pd2hv/libs/pd/until.pd"]}
{"id": "C140", "title": "until ends for every number and is started by bang", "statement": "Every number causes trunc(x) bangs; bang starts the loop.", "quantifier": "all numbers", "why_tests_cant": "loops of any length", "anchors": ["hvcc/interpreters/pd2hv/libs/pd/until.pd"]}
{"id": "C141", "title": "makenote ends every note it begins", "statement": "A pitch with a velocity other than 0 sends velocity and pitch, and velocity 0 and the same pitch after the duration in force; at most eight notes wait for their end.", "quantifier": "all whole sample rates, all histories", "why_tests_cant": "histories are unbounded", "anchors": ["hvcc/interpreters/pd2hv/libs/pd/makenote.pd", "hvcc/generators/ir2c/static/HvControlDelay.c:cDelay_onMessage"]}
{"id": "C142", "title": "makenote holds any number of notes", "statement": "As before, without a limit on the notes that wait for their end.", "quantifier": "all histories", "why_tests_cant": "histories are unbounded", "anchors": ["hvcc/interpreters/pd2hv/libs/pd/makenote.pd", "hvcc/generators/ir2c/static/HvControlDelay.h:__HV_DELAY_MAX_MESSAGES__"]}
{"id": "C143", "title": "stripnote drops notes of velocity 0", "statement": "A pitch is sent with the velocity unless the velocity is 0; a list (pitch, velocity other than 0) is sent and sets the velocity.", "quantifier": "all histories", "why_tests_cant": "histories are unbounded", "anchors": ["hvcc/interpreters/pd2hv/libs/pd/stripnote.pd"]}
{"id": "C144", "title": "stripnote remembers the velocity of every list", "statement": "The velocity of a list is the velocity of later pitches, also if it is 0.", "quantifier": "all histories", "why_tests_cant": "histories are unbounded", "anchors": ["hvcc/interpreters/pd2hv/libs/pd/stripnote.pd"]}
{"id": "C145", "title": "clip~ limits every number on every build", "statement": "For numbers lo <= hi, clip~ shows lo for smaller inputs, hi for greater ones and the input itself between them, on AVX, SSE, both NEONs and without SIMD.", "quantifier": "all samples and bounds that are numbers, all builds", "why_tests_cant": "2^96 combinations on five builds", "anchors": ["hvcc/interpreters/pd2hv/libs/pd/clip~.pd", "hvcc/generators/ir2c/static/HvMath.h:__hv_min_f", "hvcc/generators/ir2c/static/HvMath.h:__hv_max_f"]}
{"id": "C146", "title": "clip~ stays between its bounds whatever the input", "statement": "The output lies between the bounds, also for an input that is not a number.", "quantifier": "all samples, all builds", "why_tests_cant": "depends on the instruction set", "anchors": ["hvcc/interpreters/pd2hv/libs/pd/clip~.pd", "hvcc/generators/ir2c/static/HvMath.h:__hv_min_f", "hvcc/generators/ir2c/static/HvMath.h:__hv_max_f"]}
{"id": "C147", "title": "wrap~ gives the fractional part", "statement": "For every finite sample the output lies between 0 and 1 and is within 2^-25 of the fractional part of the input.", "quantifier": "all finite samples, all builds", "why_tests_cant": "floating-point rounding, 2^32 inputs", "anchors": ["hvcc/interpreters/pd2hv/libs/pd/wrap~.pd", "hvcc/generators/ir2c/static/HvMath.h:__hv_floor_f", "hvcc/generators/ir2c/static/HvMath.h:__hv_sub_f"]}
{"id": "C148", "title": "wrap~ is less than 1", "statement": "The output of wrap~ is less than 1.", "quantifier": "all finite samples", "why_tests_cant": "2^32 inputs", "anchors": ["hvcc/interpreters/pd2hv/libs/pd/wrap~.pd"]}
{"id": "C149", "title": "abs~ is the absolute value on every build", "statement": "Every sample becomes its absolute value.", "quantifier": "all samples, all builds", "why_tests_cant": "2^32 inputs on five builds", "anchors": ["hvcc/interpreters/pd2hv/libs/pd/abs~.pd", "hvcc/generators/ir2c/static/HvMath.h:__hv_abs_f"]}
{"id": "C150", "title": "/~ divides and protects against 0", "statement": "A division by 0 or -0 gives 0 on every build; other quotients are correctly rounded on AVX, SSE and without SIMD.", "quantifier": "all pairs of samples, all builds", "why_tests_cant": "2^64 inputs", "anchors": ["hvcc/generators/ir2c/static/HvMath.h:__hv_div_f"]}
{"id": "C151", "title": "/~ is correctly rounded on every build", "statement": "Every quotient is correctly rounded, also on NEON.", "quantifier": "all pairs of samples", "why_tests_cant": "2^64 inputs", "anchors": ["hvcc/generators/ir2c/static/HvMath.h:__hv_div_f"]}
{"id": "C152", "title": "sqrt~ is the root of positive numbers and 0 otherwise", "statement": "On AVX, SSE and without SIMD: the correctly rounded root of a positive sample, 0 for any other sample, NaN included.", "quantifier": "all samples", "why_tests_cant": "2^32 inputs on three builds", "anchors": ["hvcc/interpreters/pd2hv/libs/pd/sqrt~.pd", "hvcc/generators/ir2c/static/HvMath.h:__hv_sqrt_f", "hvcc/generators/ir2c/static/HvMath.h:__hv_and_f", "hvcc/generators/ir2c/static/HvMath.h:__hv_gt_f"]}
{"id": "C153", "title": "cos~ is the cosine", "statement": "For every finite sample x the output is within 1/100000 of cos(2 pi x).", "quantifier": "all finite samples, all builds", "why_tests_cant": "floating-point rounding, 2^32 inputs", "anchors": ["hvcc/interpreters/pd2hv/libs/pd/cos~.pd", "hvcc/interpreters/pd2hv/libs/pd/wrap~.pd", "hvcc/interpreters/pd2hv/libs/pd/abs~.pd"]}
{"id": "C154", "title": "osc~ is the cosine of its phase", "statement": "For every phase p between 0 and 1 the output is within 1/1000 of cos(2 pi p).", "quantifier": "all such phases, all builds", "why_tests_cant": "floating-point rounding, 2^30 inputs", "anchors": ["hvcc/interpreters/pd2hv/libs/pd/osc~.pd", "hvcc/interpreters/pd2hv/libs/pd/abs~.pd"]}
{"id": "C155", "title": "ftom~ and rmstodb~ are close to the logarithms they stand for", "statement": "On SSE and NEON ftom~ is within 0.53 of 69 + 12 log2(x / 440), rmstodb~ within 0.3 of max(100 + 20 log10 x, 0), for every normal positive sample; rmstodb~ of samples up to 0 is 0.", "quantifier": "all such samples", "why_tests_cant": "floating-point rounding, 2^31 inputs", "anchors": ["hvcc/interpreters/pd2hv/libs/pd/ftom~.pd", "hvcc/interpreters/pd2hv/libs/pd/rmstodb~.pd", "hvcc/generators/ir2c/static/HvMath.h:__hv_log2_f"]}
{"id": "C156", "title": "ftom~ and rmstodb~ work on every build", "statement": "They show a number for every positive sample.", "quantifier": "all builds", "why_tests_cant": "depends on the instruction set", "anchors": ["hvcc/interpreters/pd2hv/libs/pd/ftom~.pd", "hvcc/interpreters/pd2hv/libs/pd/rmstodb~.pd", "hvcc/generators/ir2c/static/HvMath.h:__hv_log2_f"]}
{"id": "C157", "title": "A comparison gives 1 or 0", "statement": "The operators < <= > >= == != of expr~ give 1 if the comparison holds, else 0.", "quantifier": "all pairs of samples, all builds", "why_tests_cant": "2^64 inputs", "anchors": ["hvcc/generators/ir2c/static/HvMath.h:__hv_gt_f", "hvcc/generators/ir2c/static/HvMath.h:__hv_lt_f", "hvcc/generators/ir2c/static/HvMath.h:__hv_eq_f", "hvcc/generators/ir2c/static/HvMath.h:__hv_neq_f"]}
{"id": "C158", "title": "The functions of the C library can be used in signals on every build", "statement": "sin~, tan~, tanh~ and so on show the function's value.", "quantifier": "all samples, all builds", "why_tests_cant": "depends on the instruction set", "anchors": ["hvcc/generators/ir2c/static/HvMath.h:__hv_tan_f", "hvcc/generators/ir2c/static/HvMath.h:__hv_atan_f", "hvcc/generators/ir2c/static/HvMath.h:__hv_tanh_f"]}
{"id": "C159", "title": "tabread~ shows a sample of its table, whatever its input", "statement": "For a table of 1 to 2^24 samples every input, also infinity and NaN, shows one of the table's samples.", "quantifier": "all tables, samples and builds", "why_tests_cant": "2^32 inputs, tables of any size", "anchors": ["hvcc/interpreters/pd2hv/libs/pd/tabread~.pd", "hvcc/generators/ir2c/static/HvSignalTabread.h:__hv_tabread_if", "hvcc/generators/ir2c/static/HvMath.h:__hv_cast_fi"]}
{"id": "C160", "title": "tabread~ drops the fraction of the position", "statement": "The sample shown is the one at floor(x), limited to the table.", "quantifier": "all tables, finite samples and builds", "why_tests_cant": "depends on the instruction set", "anchors": ["hvcc/interpreters/pd2hv/libs/pd/tabread~.pd", "hvcc/generators/ir2c/static/HvMath.h:__hv_cast_fi"]}
{"id": "C161", "title": "tabread4~ interpolates between neighbouring samples", "statement": "For a table of 2 to 2^24 samples between -1 and 1 the output is within 10^-6 of the linear interpolation at the position, limited to the table; no input reads outside the table.", "quantifier": "all such tables, all samples and builds", "why_tests_cant": "floating-point rounding, tables of any size", "anchors": ["hvcc/interpreters/pd2hv/libs/pd/tabread4~.pd", "hvcc/generators/ir2c/static/HvSignalTabread.h:__hv_tabread_if"]}
{"id": "C162", "title": "tabread4~ works with every table", "statement": "It shows a sample for every table that is not empty.", "quantifier": "all tables", "why_tests_cant": "tables of any size", "anchors": ["hvcc/interpreters/pd2hv/libs/pd/tabread4~.pd", "hvcc/generators/ir2c/static/HvSignalTabread.h:__hv_tabread_if"]}
{"id": "C163", "title": "lop~ never amplifies", "statement": "If the input stays between -1 and 1, so does the output, with rounding errors, whatever the cut-off does (build without SIMD).", "quantifier": "all inputs, coefficients between 0 and 1, all times", "why_tests_cant": "rounding errors accumulate for ever", "anchors": ["hvcc/interpreters/pd2hv/libs/pd/lop~.pd", "hvcc/generators/ir2c/static/HvSignalRPole.h:__hv_rpole_f"]}
{"id": "C164", "title": "sqrt~ is right on NEON", "statement": "The root of a positive sample, infinity included, is a number.", "quantifier": "all positive samples", "why_tests_cant": "depends on the instruction set", "anchors": ["hvcc/interpreters/pd2hv/libs/pd/sqrt~.pd", "hvcc/generators/ir2c/static/HvMath.h:__hv_sqrt_f"]}
{"id": "C165", "title": "The records of a Pd file are read as they were written", "statement": "Wherever Pd breaks the lines and whichever ends of lines the file has, every record is read as the list of its atoms, escapes undone; a box width at its end is dropped.", "quantifier": "all files Pd can write (atoms without backslashes and line ends), all ways to break lines", "why_tests_cant": "unbounded files, any position of the breaks", "anchors": ["hvcc/interpreters/pd2hv/PdParser.py:get_pd_line", "hvcc/interpreters/pd2hv/PdParser.py:split_line"]}
{"id": "C166", "title": "Every atom can occur in a Pd file", "statement": "Records with atoms that end with a backslash, or that end with the atoms comma, f and a number, are read too.", "quantifier": "all atoms", "why_tests_cant": "depends on what a user types", "anchors": ["hvcc/interpreters/pd2hv/PdParser.py:get_pd_line", "hvcc/interpreters/pd2hv/PdParser.py:RE_WIDTH"]}
{"id": "C167", "title": "A message box keeps its messages", "statement": "Messages separated by commas, and after semicolons messages for receivers, are those that were written; the messages for a receiver are read from a hidden box in the same way.", "quantifier": "all boxes with a message for the outlet, any number of messages, words and receivers", "why_tests_cant": "unbounded text", "anchors": ["hvcc/interpreters/pd2hv/PdMessageObject.py:__init__"]}
{"id": "C168", "title": "Every message box is understood", "statement": "A box that only sends to receivers sends nothing to its outlet; symbols with spaces stay whole.", "quantifier": "all boxes", "why_tests_cant": "depends on what a user types", "anchors": ["hvcc/interpreters/pd2hv/PdMessageObject.py:__init__", "hvcc/interpreters/pd2hv/PdParser.py:split_line"]}
{"id": "C169", "title": "A patch is read whole", "statement": "Objects, comments, message boxes, subpatches to any depth and tables are read in order, with their arguments and values, and so are all connections; nothing is added unless an object names a sender or receiver.", "quantifier": "all patches, any nesting, any breaks of lines", "why_tests_cant": "unbounded nesting", "anchors": ["hvcc/interpreters/pd2hv/PdParser.py:graph_from_file", "hvcc/interpreters/pd2hv/PdParser.py:graph_from_canvas"]}
{"id": "C170", "title": "A slider, button or number box sends to and receives from its names", "statement": "In the main window, an object with a send name is connected to a sender, one with a receive name to a receiver of that name.", "quantifier": "all patches, objects and names", "why_tests_cant": "unbounded patches", "anchors": ["hvcc/interpreters/pd2hv/PdParser.py:graph_from_canvas"]}
{"id": "C171", "title": "A message box sends its messages to their receivers", "statement": "In the main window, whatever is connected to the box by its first outlet triggers a hidden box with the messages, connected to a sender.", "quantifier": "all patches, boxes and connections", "why_tests_cant": "unbounded patches", "anchors": ["hvcc/interpreters/pd2hv/PdParser.py:graph_from_canvas"]}
{"id": "C172", "title": "Names and messages for receivers work everywhere", "statement": "The same holds in subpatches, and for connections from any outlet.", "quantifier": "all patches", "why_tests_cant": "depends on the patch", "anchors": ["hvcc/interpreters/pd2hv/PdParser.py:graph_from_canvas"]}
{"id": "C173", "title": "A table has the size it declares", "statement": "Missing values are zero, surplus ones extend the table; a window may show several tables.", "quantifier": "all sizes and numbers of values", "why_tests_cant": "depends on the patch", "anchors": ["hvcc/interpreters/pd2hv/PdParser.py:graph_from_canvas"]}
{"id": "C174", "title": "The arguments an abstraction declares are found", "statement": "In a file without broken lines, exactly the comments @hv_arg of the main window are found, in order, with number, name, type, default value and whether they are required.", "quantifier": "all such files, with any subpatches and tables", "why_tests_cant": "unbounded files", "anchors": ["hvcc/interpreters/pd2hv/PdParser.py:__get_hv_args", "hvcc/interpreters/pd2hv/PdParser.py:graph_from_canvas"]}
{"id": "C175", "title": "Declarations are found however Pd writes the file", "statement": "They are found when the line is broken, when the comment has a width, and beside subpatches in any places.", "quantifier": "all files", "why_tests_cant": "depends on the layout of the patch", "anchors": ["hvcc/interpreters/pd2hv/PdParser.py:__get_hv_args"]}
{"id": "C176", "title": "Every instance of an abstraction has its own $0", "statement": "All abstractions an abstraction contains are read, in order, as often as they occur, and numbered without gaps.", "quantifier": "all sets of files that do not contain themselves", "why_tests_cant": "unbounded nesting", "anchors": ["hvcc/interpreters/pd2hv/PdParser.py:graph_from_file"]}
{"id": "C177", "title": "An abstraction that contains itself is recognised", "statement": "It is reported when it is read the second time.", "quantifier": "all depths", "why_tests_cant": "unbounded recursion", "anchors": ["hvcc/interpreters/pd2hv/PdGraph.py:is_abstraction_on_call_stack", "hvcc/interpreters/pd2hv/PdParser.py:graph_from_canvas"]}
{"id": "C178", "title": "Deeper receivers get a message first", "statement": "Of the receivers of a name those in deeper subpatches or abstractions come first, on the same level those created first, if the numbers of the receivers differ by less than 1000.", "quantifier": "all patches with less than 1000 receivers", "why_tests_cant": "unbounded patches", "anchors": ["hvcc/interpreters/pd2hv/PdReceiveObject.py:to_hv", "hvcc/core/hv2ir/HeavyGraph.py"]}
{"id": "C179", "title": "Deeper receivers get a message first in patches of any size", "statement": "The same without the limit.", "quantifier": "all patches", "why_tests_cant": "needs a patch with 1000 receivers", "anchors": ["hvcc/interpreters/pd2hv/PdReceiveObject.py:to_hv"]}
{"id": "C180", "title": "MIDI messages to a plugin reach notein, ctlin, bendin and the like", "statement": "The channel messages of a block arrive at their receivers in order, with note, velocity, controller, value and channel in the right places.", "quantifier": "all blocks of channel messages, whatever stray reads give", "why_tests_cant": "unbounded blocks and all 2^21 messages", "anchors": ["hvcc/generators/c2dpf/templates/midiInput.cpp:handleMidiInput"]}
{"id": "C181", "title": "midiin gets the bytes of a plugin's messages", "statement": "Every message that comes in arrives at midiin byte by byte.", "quantifier": "all blocks", "why_tests_cant": "the stray reads usually do not crash", "anchors": ["hvcc/generators/c2dpf/templates/midiInput.cpp:handleMidiInput"]}
{"id": "C182", "title": "Realtime messages to a plugin reach midirealtimein", "statement": "Clock, start, continue and stop from MIDI input are passed on.", "quantifier": "all blocks", "why_tests_cant": "reads an argument that was not passed", "anchors": ["hvcc/generators/c2dpf/templates/midiInput.cpp:handleMidiInput"]}
{"id": "C183", "title": "A MIDI event takes effect at its frame", "statement": "If the events of a block share a frame, their messages are stamped with it or with the frame before.", "quantifier": "all sample rates up to 1 GHz and frames up to 2^23", "why_tests_cant": "rounding of all rates and frames", "anchors": ["hvcc/generators/c2dpf/templates/midiInput.cpp:handleMidiInput", "hvcc/generators/ir2c/static/HeavyContext.cpp:sendMessageToReceiver"]}
{"id": "C184", "title": "Each MIDI event of a block takes effect at its own frame", "statement": "The same for events with different frames.", "quantifier": "all blocks", "why_tests_cant": "needs several events in a block", "anchors": ["hvcc/generators/c2dpf/templates/midiInput.cpp:handleMidiInput"]}
{"id": "C185", "title": "What MIDI objects send leaves as the bytes of that message", "statement": "Notes, controllers, programs, pressure and pitch bend leave plugins and Daisy firmware with the right status, channel and data bytes; fractions are dropped, velocity 0 is a note off, ports are dropped.", "quantifier": "all messages, channels and ports 0 to 15, all floats that stand for the values", "why_tests_cant": "all messages and floats", "anchors": ["hvcc/generators/c2dpf/templates/midiOutput.cpp:handleMidiSend", "hvcc/generators/c2daisy/templates/HeavyDaisy.cpp:HandleMidiSend"]}
{"id": "C186", "title": "Polyphonic pressure leaves a plugin as such on any port", "statement": "The channel is taken modulo 16 as for the other messages.", "quantifier": "all ports", "why_tests_cant": "only ports above the first show it", "anchors": ["hvcc/generators/c2dpf/templates/midiOutput.cpp:handleMidiSend"]}
{"id": "C187", "title": "Only valid MIDI bytes leave", "statement": "Values out of range are clipped or dropped.", "quantifier": "all values", "why_tests_cant": "depends on values a patch computes", "anchors": ["hvcc/generators/c2dpf/templates/midiOutput.cpp:handleMidiSend", "hvcc/generators/c2daisy/templates/HeavyDaisy.cpp:HandleMidiSend"]}
{"id": "C188", "title": "Notes played by a patch leave the device", "statement": "For any history of notes, velocities and channels at the inlets of noteout, exactly the notes played leave, with the velocity and channel in force.", "quantifier": "all histories", "why_tests_cant": "unbounded histories", "anchors": ["hvcc/interpreters/pd2hv/libs/pd/noteout.pd", "hvcc/generators/c2dpf/templates/midiOutput.cpp:handleMidiSend", "hvcc/generators/c2daisy/templates/HeavyDaisy.cpp:HandleMidiSend"]}
{"id": "C189", "title": "midiout sends the messages whose bytes it gets", "statement": "Bytes sent to midiout in a plugin leave as the messages they make up.", "quantifier": "all byte sequences", "why_tests_cant": "depends on uninitialised memory", "anchors": ["hvcc/generators/c2dpf/templates/midiOutput.cpp:handleMidiSend", "hvcc/generators/c2dpf/templates/HeavyDPF.hpp"]}
{"id": "C190", "title": "MIDI messages to a web page reach the objects", "statement": "As for plugins.", "quantifier": "all channel messages", "why_tests_cant": "all 2^21 messages", "anchors": ["hvcc/generators/c2js/template/hv_worklet.js:sendMidiIn"]}
{"id": "C191", "title": "What MIDI objects send leaves a web page as the bytes of that message", "statement": "As for plugins, with all ports.", "quantifier": "all channel messages and ports", "why_tests_cant": "all messages", "anchors": ["hvcc/generators/c2js/template/hv_worklet.js:sendMidiOut"]}
{"id": "C192", "title": "midiin and midiout of a web page pass raw bytes", "statement": "midiin gets all bytes of a message, midiout sends bytes.", "quantifier": "all messages", "why_tests_cant": "the status byte and short messages", "anchors": ["hvcc/generators/c2js/template/hv_worklet.js:sendMidiIn", "hvcc/generators/c2js/template/hv_worklet.js:sendMidiOut"]}
{"id": "C193", "title": "Start, continue and stop follow the transport of the host", "statement": "In any history of a plugin's blocks, exactly the changes between stopped and playing are told, start from frame 0, continue from elsewhere; they alternate; a reset is sent in every block that plays from frame 0.", "quantifier": "all histories of the host's transport", "why_tests_cant": "unbounded histories", "anchors": ["hvcc/generators/c2dpf/templates/hostTransportEvents.cpp:hostTransportEvents"]}
{"id": "C194", "title": "The MIDI clock of a plugin keeps time", "statement": "At a constant tempo, with blocks of any sizes, every tick comes in its block, 24 per beat, within 1.01 samples and a drift of one part in seven million.", "quantifier": "all sample rates, tempos and block sizes, 2^25 ticks", "why_tests_cant": "accumulated rounding over hours", "anchors": ["hvcc/generators/c2dpf/templates/hostTransportEvents.cpp:hostTransportEvents"]}
{"id": "C195", "title": "The MIDI clock survives odd tempos", "statement": "A tempo of 0 stops the clock while it lasts; any tempo lets the block end.", "quantifier": "all tempos", "why_tests_cant": "depends on the host", "anchors": ["hvcc/generators/c2dpf/templates/hostTransportEvents.cpp:hostTransportEvents"]}
{"id": "C196", "title": "The MIDI clock starts with the transport", "statement": "The first tick after a start comes with the start.", "quantifier": "all histories", "why_tests_cant": "needs a second start", "anchors": ["hvcc/generators/c2dpf/templates/hostTransportEvents.cpp:hostTransportEvents"]}
{"id": "C197", "title": "print shows label and message on a device", "statement": "On Daisy and OWL, label (up to 48 bytes), space and message are shown if the message has less than 63 bytes less the label.", "quantifier": "all labels and messages of such lengths", "why_tests_cant": "all lengths", "anchors": ["hvcc/generators/c2daisy/templates/HeavyDaisy.cpp:printHook", "hvcc/generators/c2owl/templates/HeavyOwl.hpp"]}
{"id": "C198", "title": "print shows label and message of any length", "statement": "The same for longer messages and in plugins.", "quantifier": "all labels and messages", "why_tests_cant": "reads uninitialised memory", "anchors": ["hvcc/generators/c2daisy/templates/HeavyDaisy.cpp:printHook", "hvcc/generators/c2dpf/templates/HeavyDPF.cpp:hvPrintHookFunc"]}
{"id": "C199", "title": "Number boxes, sliders and float keep a number", "statement": "float, nbx, sliders, radio buttons and number boxes send on every number they get and repeat the last one on bang; the right inlet of float sets it silently.", "quantifier": "all histories of numbers and bangs", "why_tests_cant": "history", "anchors": ["hvcc/interpreters/pd2hv/libs/pd/float.pd", "hvcc/interpreters/pd2hv/libs/pd/nbx.pd", "hvcc/interpreters/pd2hv/libs/pd/floatatom.pd", "hvcc/generators/ir2c/static/HvControlVar.c:cVar_onMessage"]}
{"id": "C200", "title": "float sends the first number of a list", "statement": "A list of two numbers at float sends the first.", "quantifier": "all lists", "why_tests_cant": "lists", "anchors": ["hvcc/generators/ir2c/static/HvControlVar.c:cVar_onMessage"]}
{"id": "C201", "title": "The conversions compute what their names say", "statement": "wrap, mtof, ftom, dbtorms, dbtopow, rmstodb and powtodb send, for every number, the value of the formula, to within the rounding of a few operations; 0 dB and less is 0, amplitudes up to 0 are 0 dB, frequencies up to 0 are -1500; other messages are ignored.", "quantifier": "all numbers (mtof: -1000 to 1000, ftom: 2^-90 on, dbtorms: to 485, dbtopow: to 450), all sequences of messages", "why_tests_cant": "real numbers", "anchors": ["hvcc/interpreters/pd2hv/libs/pd/mtof.pd", "hvcc/interpreters/pd2hv/libs/pd/ftom.pd", "hvcc/interpreters/pd2hv/libs/pd/dbtorms.pd", "hvcc/interpreters/pd2hv/libs/pd/rmstodb.pd", "hvcc/interpreters/pd2hv/libs/pd/dbtopow.pd", "hvcc/interpreters/pd2hv/libs/pd/powtodb.pd", "hvcc/interpreters/pd2hv/libs/pd/wrap.pd"]}
{"id": "C202", "title": "div drops the remainder", "statement": "div sends the quotient of whole numbers without its fraction, 0 for the divisor 0.", "quantifier": "all whole numbers to 2^24, all histories", "why_tests_cant": "all values", "anchors": ["hvcc/interpreters/pd2hv/libs/pd/div.pd", "hvcc/generators/ir2c/static/HvControlBinop.c"]}
{"id": "C203", "title": "midiin reports byte and port", "statement": "midiin sends the port, counted from 1, then the byte; midirealtimein the port from 0, then the byte.", "quantifier": "all messages", "why_tests_cant": "all values", "anchors": ["hvcc/interpreters/pd2hv/libs/pd/midiin.pd", "hvcc/interpreters/pd2hv/libs/pd/midirealtimein.pd"]}
{"id": "C204", "title": "random stays below its bound", "statement": "Every bang to random is answered at once by a whole number from 0 up to, not including, the bound in force.", "quantifier": "all seeds, bounds 1 to 2^24, all histories", "why_tests_cant": "all seeds", "anchors": ["hvcc/interpreters/pd2hv/libs/pd/random.pd", "hvcc/generators/ir2c/static/HvControlRandom.c"]}
{"id": "C205", "title": "random repeats itself after the same seed", "statement": "Two instances that get the same seed send the same numbers from then on.", "quantifier": "all initial seeds, seeds below 2^24, all later histories", "why_tests_cant": "all histories", "anchors": ["hvcc/interpreters/pd2hv/libs/pd/random.pd", "hvcc/generators/ir2c/static/HvControlRandom.c"]}
{"id": "C206", "title": "trigger sends from right to left", "statement": "A trigger with any number of outlets sends, for every message, from the last outlet to the first: a the message, b bang, f its first number if there is one.", "quantifier": "all lists of a, b, f; all messages", "why_tests_cant": "any number of outlets", "anchors": ["hvcc/interpreters/pd2hv/PdTriggerObject.py", "hvcc/core/hv2ir/HLangSequence.py", "hvcc/generators/ir2c/static/HvControlCast.c"]}
{"id": "C207", "title": "trigger f sends a number for every message", "statement": "Bang at t f sends 0, as in Pd.", "quantifier": "all messages", "why_tests_cant": "other messages", "anchors": ["hvcc/generators/ir2c/static/HvControlCast.c"]}
{"id": "C208", "title": "unpack distributes a list", "statement": "unpack with any number of outlets sends the elements of a message from the last to the first; outlets beyond its end stay silent.", "quantifier": "all numbers of outlets, all messages", "why_tests_cant": "any size", "anchors": ["hvcc/interpreters/pd2hv/PdUnpackObject.py", "hvcc/generators/ir2c/static/HvControlSlice.c"]}
{"id": "C209", "title": "pack collects numbers", "statement": "pack of any size keeps the last number of each inlet; a number, list or bang at the left inlet stores what it brings and sends all.", "quantifier": "all sizes and initial values, all histories of numbers", "why_tests_cant": "history", "anchors": ["hvcc/interpreters/pd2hv/PdPackObject.py", "hvcc/generators/ir2c/static/HvControlPack.c"]}
{"id": "C210", "title": "route sends a message to the first argument that fits", "statement": "A message whose first element equals an argument leaves at its outlet without that element (bang if nothing is left), others at the last outlet.", "quantifier": "all lists of arguments, all messages whose codes do not collide", "why_tests_cant": "any number of arguments", "anchors": ["hvcc/interpreters/pd2hv/PdRouteObject.py", "hvcc/generators/ir2c/ControlSwitchcase.py"]}
{"id": "C211", "title": "route compares numbers and words", "statement": "-0 fits 0, a number never fits a word, every message is accepted.", "quantifier": "all messages", "why_tests_cant": "hash collisions", "anchors": ["hvcc/generators/ir2c/ControlSwitchcase.py"]}
{"id": "C212", "title": "select sends a bang for the first argument that fits", "statement": "A message whose first element equals an argument causes a bang at its outlet, others leave at the last outlet.", "quantifier": "all lists of arguments, all messages whose codes do not collide", "why_tests_cant": "any number of arguments", "anchors": ["hvcc/interpreters/pd2hv/PdSelectObject.py", "hvcc/generators/ir2c/ControlSwitchcase.py"]}
{"id": "C213", "title": "line moves in steps of its grain", "statement": "[v t] at the left inlet sends the current value at once and then, every grain, the value plus the step, until the time is used up: then the target itself, and nothing more; a bare number uses the time of the middle inlet, once; stop keeps the value, set replaces it silently; a grain of 0 or less is 20 ms.", "quantifier": "all histories of messages, at a whole number of samples per millisecond and whole milliseconds", "why_tests_cant": "histories", "anchors": ["hvcc/interpreters/pd2hv/libs/pd/line.pd"]}
{"id": "C214", "title": "line ramps to its target", "statement": "Whatever happened before, a target that nothing interrupts gives ceil(time / grain) values one grain apart, then exactly the target and silence.", "quantifier": "all histories, all targets, times and grains", "why_tests_cant": "unbounded number of steps", "anchors": ["hvcc/interpreters/pd2hv/libs/pd/line.pd"]}
{"id": "C215", "title": "line keeps to the straight line", "statement": "The i-th value of a ramp from a to b differs from a + i*grain/time*(b-a) by at most (i+4)/2^22 times the larger of |a|, |b|, 1, although each value is computed from the one before.", "quantifier": "all a, b, times, grains, steps", "why_tests_cant": "accumulated rounding", "anchors": ["hvcc/interpreters/pd2hv/libs/pd/line.pd", "hvcc/generators/ir2c/static/HvControlBinop.c"]}
{"id": "C216", "title": "line arrives when the time is over, grain dividing it", "statement": "If the time is a multiple of the grain the target is sent exactly when the time is over, and everything else before.", "quantifier": "all times and grains", "why_tests_cant": "unbounded number of steps", "anchors": ["hvcc/interpreters/pd2hv/libs/pd/line.pd"]}
{"id": "C217", "title": "line arrives when the time is over", "statement": "The target is sent when the time is over, whatever the grain.", "quantifier": "all times and grains", "why_tests_cant": "times between two steps", "anchors": ["hvcc/interpreters/pd2hv/libs/pd/line.pd"]}
{"id": "C218", "title": "Real time messages to a web page reach midirealtimein", "statement": "Clock, start, continue, stop, active sensing and reset reach midirealtimein, once each; other system messages do not, and no system message reaches the objects for channel messages.", "quantifier": "all system messages with any data bytes", "why_tests_cant": "which of the sixteen are in the list", "anchors": ["hvcc/generators/c2js/template/hv_worklet.js:hv_worklet.js:sendMidiIn", "hvcc/generators/c2js/template/hv_worklet.js:hv_worklet.js:MIDI_REALTIME"]}
{"id": "C219", "title": "noise~ stays between -1 and 1", "statement": "In SIMD builds, whatever is sent to the inlet and whenever, every sample of noise~ is a number between -1 and 1, exclusive.", "quantifier": "all histories of seeds (within int) and vectors", "why_tests_cant": "all 2^32 states, unbounded histories", "anchors": ["hvcc/interpreters/pd2hv/libs/pd/noise~.pd", "hvcc/generators/ir2c/static/HvSignalVar.c:sVari_onMessage", "hvcc/generators/ir2c/static/HvMath.h:__hv_mul_i", "hvcc/generators/ir2c/static/HvMath.h:__hv_cast_if"]}
{"id": "C220", "title": "noise~ does not repeat for hours", "statement": "In SIMD builds, after any history and for every seed, the vectors of noise~ repeat with a period of 2^29 vectors and no sooner: no two places less than that apart agree in two vectors.", "quantifier": "all seeds, all pairs of places", "why_tests_cant": "half a billion vectors per seed", "anchors": ["hvcc/interpreters/pd2hv/libs/pd/noise~.pd", "hvcc/generators/ir2c/static/HvMath.h:__hv_mul_i", "hvcc/generators/ir2c/static/HvSignalVar.c:sVari_update"]}
{"id": "C221", "title": "The samples of noise~ are independent", "statement": "Neighbouring samples of noise~ are unrelated.", "quantifier": "all histories", "why_tests_cant": "a relation that holds modulo 2 between all neighbours in a vector", "anchors": ["hvcc/interpreters/pd2hv/libs/pd/noise~.pd", "hvcc/generators/ir2c/static/HvSignalVar.c:sVari_update"]}
{"id": "C222", "title": "Every sample position of noise~ has the full period", "statement": "The single samples of the vectors do not repeat sooner than the vectors, and are not silent.", "quantifier": "all seeds", "why_tests_cant": "rare seeds: multiples of powers of two", "anchors": ["hvcc/interpreters/pd2hv/libs/pd/noise~.pd", "hvcc/generators/ir2c/static/HvSignalVar.c:sVari_update"]}
{"id": "C223", "title": "noise~ works without SIMD", "statement": "The same bounds and period hold in builds without SIMD.", "quantifier": "all seeds", "why_tests_cant": "signed overflow is undefined behaviour, compilers often wrap", "anchors": ["hvcc/interpreters/pd2hv/libs/pd/noise~.pd", "hvcc/generators/ir2c/static/HvMath.h:__hv_mul_i"]}
{"id": "C224", "title": "lop~ follows its cutoff", "statement": "lop~ is given its coefficients when the patch is loaded, from the cutoff in its box, and again after every number at its right inlet, at once and from that number; nothing else changes them.", "quantifier": "all histories of cutoffs, all sample rates", "why_tests_cant": "unbounded histories, all floats", "anchors": ["hvcc/interpreters/pd2hv/libs/pd/lop~.pd"]}
{"id": "C225", "title": "lop~ has the right coefficient", "statement": "The coefficient of lop~ is 2 pi times the cutoff over the sample rate, at least 0 and at most 1, to within 1/100000.", "quantifier": "all cutoffs up to 1 MHz, positive or negative, all rates from 1 kHz to 200 kHz", "why_tests_cant": "all floats; rounding", "anchors": ["hvcc/interpreters/pd2hv/libs/pd/lop~.pd"]}
{"id": "C226", "title": "lop~ stays bounded whatever is sent to it", "statement": "Whatever numbers are sent to the right inlet of lop~, infinities and not-a-numbers included, its output stays within 1 if its input does (without SIMD).", "quantifier": "all histories of cutoffs and inputs", "why_tests_cant": "unbounded histories, all floats", "anchors": ["hvcc/interpreters/pd2hv/libs/pd/lop~.pd", "hvcc/generators/ir2c/static/HvSignalRPole.h:__hv_rpole_f"]}
{"id": "C227", "title": "hip~ follows its cutoff", "statement": "hip~ is given its gain and its coefficient when the patch is loaded and again after every number at its right inlet, at once and from that number; nothing else changes them.", "quantifier": "all histories of cutoffs, all sample rates", "why_tests_cant": "unbounded histories, all floats", "anchors": ["hvcc/interpreters/pd2hv/libs/pd/hip~.pd"]}
{"id": "C228", "title": "hip~ has the right coefficient", "statement": "The coefficient of hip~ is 1 less 2 pi times the cutoff over the sample rate, at least 0, to within 1/100000, where cutoffs below 1 Hz count as 1 Hz; the gain is half of 1 plus the coefficient.", "quantifier": "all cutoffs up to 1 MHz, positive or negative, all rates from 1 kHz to 200 kHz", "why_tests_cant": "all floats; rounding", "anchors": ["hvcc/interpreters/pd2hv/libs/pd/hip~.pd"]}
{"id": "C229", "title": "hip~ with a fixed cutoff stays bounded", "statement": "From silence and with an unchanged cutoff, the output of hip~ stays within 2.02 if the input stays within 1 (without SIMD).", "quantifier": "all cutoffs, rates and inputs of any length", "why_tests_cant": "unbounded inputs; rounding errors that accumulate", "anchors": ["hvcc/interpreters/pd2hv/libs/pd/hip~.pd", "hvcc/interpreters/pd2hv/libs/pd/rzero~.pd", "hvcc/generators/ir2c/static/HvSignalRPole.h:__hv_rpole_f"]}
{"id": "C230", "title": "hip~ stays bounded when its cutoff changes", "statement": "Changing the cutoff of hip~ does not make it louder than twice its input.", "quantifier": "all histories of cutoffs and inputs", "why_tests_cant": "histories of thousands of samples", "anchors": ["hvcc/interpreters/pd2hv/libs/pd/hip~.pd", "hvcc/interpreters/pd2hv/libs/pd/rzero~.pd", "hvcc/generators/ir2c/static/HvSignalRPole.h:__hv_rpole_f"]}
{"id": "C231", "title": "bp~ follows cutoff and Q", "statement": "bp~ is given its three coefficients when the patch is loaded and again after every number at either right inlet, at once and from the latest cutoff and Q; nothing else changes them.", "quantifier": "all histories of cutoffs and Qs, all sample rates", "why_tests_cant": "unbounded histories, all floats", "anchors": ["hvcc/interpreters/pd2hv/libs/pd/bp~.pd"]}
{"id": "C232", "title": "bp~ is stable for cutoffs from 0 on", "statement": "For cutoffs from 0 to 1 MHz and every Q (negative ones too) the coefficient of y[-2] is between 0 and 1, if pow squares numbers between 0 and 1 to such.", "quantifier": "all cutoffs and Qs, all rates from 1 kHz to 200 kHz", "why_tests_cant": "all floats; rounding", "anchors": ["hvcc/interpreters/pd2hv/libs/pd/bp~.pd"]}
{"id": "C233", "title": "bp~ is stable for all cutoffs", "statement": "The same for negative cutoffs, as in Pd, where they count as 10 Hz.", "quantifier": "all cutoffs and Qs", "why_tests_cant": "a whole half of the floats", "anchors": ["hvcc/interpreters/pd2hv/libs/pd/bp~.pd"]}
{"id": "C234", "title": "A parameter's default is within its limits", "statement": "A box r name @hv_param min max default (without @raw) uses the numbers given; if the default is not between the limits an error is reported and the name does not become a parameter.", "quantifier": "all arguments", "why_tests_cant": "any texts, not-a-numbers included", "anchors": ["hvcc/interpreters/pd2hv/PdReceiveObject.py:__init__", "hvcc/interpreters/pd2hv/PdSendObject.py:__init__"]}
{"id": "C235", "title": "A @raw parameter's default is within its limits", "statement": "The same for @raw and @owl.", "quantifier": "all arguments", "why_tests_cant": "the default that is computed if none is given", "anchors": ["hvcc/interpreters/pd2hv/PdRaw.py:parse_pd_raw_args"]}
{"id": "C236", "title": "One word of @raw is read the same way every time", "statement": "With one of the words @raw, @raw_min, @raw_max, @raw_default, @raw_param (or @owl...) the result does not depend on the order of Python's sets; r name @raw output min max default uses the numbers given.", "quantifier": "all arguments, all orders", "why_tests_cant": "the order changes from run to run", "anchors": ["hvcc/interpreters/pd2hv/PdRaw.py:parse_pd_raw_args"]}
{"id": "C237", "title": "Several words of @raw are read the same way every time", "statement": "The same with several of these words.", "quantifier": "all arguments, all orders", "why_tests_cant": "the order changes from run to run", "anchors": ["hvcc/interpreters/pd2hv/PdRaw.py:parse_pd_raw_args"]}
{"id": "C238", "title": "getParameterInfo lists every parameter once", "statement": "If no error is reported and no two names are made equal by the '_' before a digit, getParameterInfo gives every name exported by some box exactly once, in alphabetical order, with its hash, kind, limits and default; the count is the same for every index and other indices give the invalid entry.", "quantifier": "all patches, all indices", "why_tests_cant": "any number of boxes with any names", "anchors": ["hvcc/core/hv2ir/HeavyGraph.py:group_control_receivers", "hvcc/core/hv2ir/HeavyGraph.py:get_ir_receiver_dict", "hvcc/core/hv2ir/HIrReceive.py", "hvcc/generators/ir2c/ir2c.py:filter_extern", "hvcc/generators/ir2c/templates/Heavy_NAME.cpp:getParameterInfo"]}
{"id": "C239", "title": "No parameter is lost", "statement": "The same for all names.", "quantifier": "all patches", "why_tests_cant": "rare names", "anchors": ["hvcc/core/hv2ir/HeavyGraph.py:get_ir_receiver_dict"]}
{"id": "C240", "title": "The check of parameter names is exact", "statement": "A list of names is accepted if and only if no two of them differ in their case only.", "quantifier": "all lists of names", "why_tests_cant": "lists of any length", "anchors": ["hvcc/compiler.py:check_extern_name_conflicts"]}
{"id": "C241", "title": "The names in a DPF plugin are different", "statement": "If no conflict of names is reported, the enumerators of a DPF plugin's parameters are different.", "quantifier": "all patches", "why_tests_cant": "an input and an output of one name", "anchors": ["hvcc/compiler.py:generate_extern_info", "hvcc/generators/c2dpf/templates/HeavyDPF.hpp"]}
{"id": "C242", "title": "A DPF plugin's parameters keep their values", "statement": "getParameterValue gives what the host set last or, for an output parameter, what the patch sent last, or the default, after any history of settings, sends, reads and changes of the sample rate; none of them fails.", "quantifier": "all patches, all histories", "why_tests_cant": "unbounded histories", "anchors": ["hvcc/generators/c2dpf/templates/HeavyDPF.cpp:getParameterValue", "hvcc/generators/c2dpf/templates/HeavyDPF.cpp:setParameterValue", "hvcc/generators/c2dpf/templates/HeavyDPF.cpp:setOutputParameter", "hvcc/generators/c2dpf/templates/HeavyDPF.cpp:sampleRateChanged"]}
{"id": "C243", "title": "A DPF plugin's new context gets all values", "statement": "After a change of the sample rate the new context is sent the current value of every input parameter, in order, and its queue refuses none of them, however many there are.", "quantifier": "all patches, all histories, up to 4 GB of queue", "why_tests_cant": "any number of parameters against the size of the queue", "anchors": ["hvcc/generators/c2dpf/templates/HeavyDPF.cpp:sampleRateChanged", "hvcc/compiler.py:generate_extern_info", "hvcc/generators/ir2c/static/HvLightPipe.c:hLp_getWriteBuffer"]}
{"id": "C244", "title": "No value set by the host is lost", "statement": "What a host sets in a DPF plugin reaches the patch.", "quantifier": "all histories", "why_tests_cant": "many settings between two blocks", "anchors": ["hvcc/generators/c2dpf/templates/HeavyDPF.cpp:setParameterValue", "hvcc/compiler.py:generate_extern_info", "hvcc/generators/ir2c/static/HeavyContext.cpp:sendMessageToReceiver"]}
{"id": "C245", "title": "Daisy and OWL print label and message", "statement": "The print hooks of Daisy and OWL never write outside of their buffer, and give label, space and message to the log if the label has at most 48 characters and both together at most 62.", "quantifier": "all labels and messages", "why_tests_cant": "every pair of lengths", "anchors": ["hvcc/generators/c2daisy/templates/HeavyDaisy.cpp:printHook", "hvcc/generators/c2owl/templates/HeavyOwl.hpp:owlPrintHook"]}
{"id": "C246", "title": "Daisy and OWL print long messages", "statement": "Longer messages are cut off.", "quantifier": "all labels and messages", "why_tests_cant": "reads past the end of a buffer go unnoticed", "anchors": ["hvcc/generators/c2daisy/templates/HeavyDaisy.cpp:printHook", "hvcc/generators/c2owl/templates/HeavyOwl.hpp:owlPrintHook"]}
{"id": "C247", "title": "A DPF plugin prints short messages", "statement": "The print hook of a DPF plugin prints every message that has, together with its label, at most 62 characters.", "quantifier": "all labels and messages", "why_tests_cant": "every pair of lengths", "anchors": ["hvcc/generators/c2dpf/templates/HeavyDPF.cpp:hvPrintHookFunc"]}
{"id": "C248", "title": "A DPF plugin prints labels and long messages", "statement": "It prints the label before the message, and cuts off longer messages.", "quantifier": "all labels and messages", "why_tests_cant": "reads of bytes that were never written go unnoticed", "anchors": ["hvcc/generators/c2dpf/templates/HeavyDPF.cpp:hvPrintHookFunc"]}
{"id": "C249", "title": "A name means what is visible, nearest first", "statement": "Looking up a name in a subpatch finds exactly the objects of that name and type in the subpatch itself and those registered above it that are not private, the nearest first and otherwise in the order in which they were added.", "quantifier": "all nestings of patches, all objects", "why_tests_cant": "trees of any shape and depth", "anchors": ["hvcc/core/hv2ir/HeavyGraph.py:resolve_objects_for_name", "hvcc/core/hv2ir/HeavyGraph.py:__register_named_object", "hvcc/core/hv2ir/LocalVars.py"]}
{"id": "C250", "title": "A table name means one table", "statement": "Tables load if and only if their names differ; then a name means the table with that name in every subpatch and at every moment of the reduction, in whatever order tables and readers are reduced.", "quantifier": "all nestings of patches, all orders", "why_tests_cant": "all orders of reduction", "anchors": ["hvcc/core/hv2ir/HLangTable.py:reduce", "hvcc/core/hv2ir/HIrTabread.py:reduce", "hvcc/core/hv2ir/HIrTabwrite.py:reduce", "hvcc/core/hv2ir/HeavyGraph.py:remove_object"]}
{"id": "C251", "title": "Every table is in the program", "statement": "The dictionary of tables contains every table once, under its name, if no two names are made equal by the '_' before a digit.", "quantifier": "all nestings of patches, all orders", "why_tests_cant": "any number of tables", "anchors": ["hvcc/core/hv2ir/HeavyGraph.py:get_ir_table_dict"]}
{"id": "C252", "title": "No table is lost", "statement": "The same for all names.", "quantifier": "all patches", "why_tests_cant": "rare names", "anchors": ["hvcc/core/hv2ir/HeavyGraph.py:get_ir_table_dict"]}
{"id": "C253", "title": "A patch fits a board if and only if its parameters do", "statement": "A Daisy program is generated if and only if every input parameter names a component of the board that can be read (and is no CV output) and every output parameter one that can be written.", "quantifier": "all boards with different component names, all aliases, all lists of parameters", "why_tests_cant": "all boards and names", "anchors": ["hvcc/generators/c2daisy/parameters.py:parse_parameters", "hvcc/generators/c2daisy/parameters.py:verify_param_exists"]}
{"id": "C254", "title": "A Daisy input is read from its component", "statement": "Every value the Daisy program sends to the patch belongs to an input parameter of the patch and is read from the first component that goes by its name, with the expression of that variant, in the audio callback or in the main loop as the board says; the component is part of the program.", "quantifier": "all boards, aliases and parameters", "why_tests_cant": "all boards and names", "anchors": ["hvcc/generators/c2daisy/parameters.py:parse_parameters", "hvcc/generators/c2daisy/parameters.py:get_component_mapping", "hvcc/generators/c2daisy/parameters.py:get_root_component"]}
{"id": "C255", "title": "Parameters for different controls are all connected", "statement": "If no two inputs (outputs) mean the same control, every one has its line, in order; outputs have the places 0, 1, 2, ... of the table and differently named hooks.", "quantifier": "all boards, aliases and parameters", "why_tests_cant": "any number of parameters", "anchors": ["hvcc/generators/c2daisy/parameters.py:parse_parameters"]}
{"id": "C256", "title": "Of several parameters for one control the last is connected", "statement": "The inputs (outputs) that are connected are exactly those after which no other one means the same control.", "quantifier": "all boards, aliases and parameters", "why_tests_cant": "any number of parameters", "anchors": ["hvcc/generators/c2daisy/parameters.py:parse_parameters"]}
{"id": "C257", "title": "Every parameter is connected", "statement": "If a Daisy program is generated, every parameter of the patch is connected to the board.", "quantifier": "all boards, aliases and parameters", "why_tests_cant": "two names for one control", "anchors": ["hvcc/generators/c2daisy/parameters.py:parse_parameters", "hvcc/generators/c2daisy/parameters.py:de_alias"]}
{"id": "C258", "title": "The errors of the Daisy generator are justified", "statement": "An unknown parameter is reported only if no component goes by its name (or it is a CV output without a channel), a wrong direction only if there is one, and other errors only if the board has no direction, getter or setter for a parameter.", "quantifier": "all boards, aliases and parameters", "why_tests_cant": "all boards and names", "anchors": ["hvcc/generators/c2daisy/parameters.py:verify_param_exists", "hvcc/generators/c2daisy/parameters.py:get_component_mapping"]}
{"id": "C259", "title": "A Daisy parameter in the wrong direction is reported", "statement": "An input parameter named after an output component, or the reverse, is reported by name.", "quantifier": "the boards that come with hvcc", "why_tests_cant": "strings compared with strings that never occur", "anchors": ["hvcc/generators/c2daisy/parameters.py:verify_param_exists", "hvcc/generators/c2daisy/json2daisy/resources/component_defs.json"]}
{"id": "C260", "title": "Aliases mean what the board says", "statement": "Names are read without regard to case; an alias stands for its component, a variant of an alias for that variant of the component, every other name for itself.", "quantifier": "all boards, aliases and names", "why_tests_cant": "all names", "anchors": ["hvcc/generators/c2daisy/parameters.py:de_alias"]}
{"id": "C261", "title": "Unused components are left out, used ones are not", "statement": "The program contains exactly the parents and the components with a parameter, in the order of the board.", "quantifier": "all boards, aliases and parameters", "why_tests_cant": "the list changes while it is searched", "anchors": ["hvcc/generators/c2daisy/parameters.py:verify_param_used", "hvcc/generators/c2daisy/parameters.py:parse_parameters"]}
{"id": "C262", "title": "An output reaches its component", "statement": "A message sent by an output parameter is stored at the place of that parameter and, if the board asks for it, given to its hook at once; all other places stay, and other messages change nothing. Its setter is that of the component that goes by its name. The hashes of the outputs are different.", "quantifier": "all boards, aliases, parameters and messages", "why_tests_cant": "any number of outputs", "anchors": ["hvcc/generators/c2daisy/templates/HeavyDaisy.cpp:sendHook", "hvcc/generators/c2daisy/parameters.py:parse_parameters"]}
{"id": "C263", "title": "Different names have different hashes", "statement": "The same without a condition on the hashes.", "quantifier": "all names", "why_tests_cant": "hash collisions", "anchors": ["hvcc/generators/ir2c/static/HvUtils.c:hv_string_to_hash", "hvcc/generators/c2daisy/templates/HeavyDaisy.cpp:sendHook"]}
{"id": "C264", "title": "A CV output drives the channel it is named after", "statement": "A CV output whose name ends in 2 drives the second channel.", "quantifier": "all names", "why_tests_cant": "names with several digits", "anchors": ["hvcc/generators/c2daisy/parameters.py:get_component_mapping"]}
{"id": "C265", "title": "Sample rate and block size of a Daisy program", "statement": "The program runs at the greatest rate of the hardware not above the one asked for (8000 if there is none) and with the block size from 1 to 256 nearest to the one asked for.", "quantifier": "all rates and sizes", "why_tests_cant": "all integers", "anchors": ["hvcc/generators/c2daisy/c2daisy.py:compile"]}
{"id": "C266", "title": "An OWL wrapper is generated if limits and defaults allow it", "statement": "The OWL wrapper is generated if and only if every receiver and sender with an OWL parameter or button has a default and different limits.", "quantifier": "all patches", "why_tests_cant": "all limits", "anchors": ["hvcc/generators/c2owl/c2owl.py:make_jdata", "hvcc/generators/c2owl/templates/HeavyOwlConstants.h"]}
{"id": "C267", "title": "A receiver Channel-k is connected to the OWL parameter k", "statement": "A receiver without @owl that is called Channel-k gets the values of the parameter k, from 0 to 1.", "quantifier": "all patches with such a receiver", "why_tests_cant": "a combination that is never generated", "anchors": ["hvcc/generators/c2owl/c2owl.py:make_jdata", "hvcc/generators/c2owl/templates/HeavyOwlConstants.h"]}
{"id": "C268", "title": "Every OWL input gets its value before a block", "statement": "If no two ports have the same key, before every block each receiver of an OWL parameter is sent the parameter's value, brought to the receiver's limits, exactly once and in order, and nothing else is sent.", "quantifier": "all patches, all values", "why_tests_cant": "any number of parameters", "anchors": ["hvcc/generators/c2owl/templates/HeavyOwl.hpp:processAudio", "hvcc/generators/c2owl/c2owl.py:make_jdata"]}
{"id": "C269", "title": "OWL values lie within their limits and begin with the default", "statement": "Parameters from 0 to 1 are sent as numbers within the limits; the value a parameter has at first is sent as the default (exact arithmetic). Different keys.", "quantifier": "all patches, all values", "why_tests_cant": "all limits", "anchors": ["hvcc/generators/c2owl/templates/HeavyOwl.hpp:HeavyPatch", "hvcc/generators/c2owl/templates/HeavyOwl.hpp:processAudio", "hvcc/generators/c2owl/templates/HeavyOwlConstants.h"]}
{"id": "C270", "title": "OWL ports that share a key", "statement": "The same if a key is used twice, for an input and an output or for two inputs.", "quantifier": "all patches", "why_tests_cant": "macros that are defined twice", "anchors": ["hvcc/generators/c2owl/templates/HeavyOwlConstants.h", "hvcc/generators/c2owl/templates/HeavyOwl.hpp:processAudio"]}
{"id": "C271", "title": "An OWL output sets its parameter or button", "statement": "A message of a sender with a key sets that parameter to the value brought back from the limits, or that button to whether it is above the middle, and nothing else; other messages set nothing (MIDI apart). Different keys and hashes.", "quantifier": "all patches, all messages", "why_tests_cant": "any number of outputs", "anchors": ["hvcc/generators/c2owl/templates/HeavyOwl.hpp:sendCallback", "hvcc/generators/c2owl/c2owl.py:make_jdata"]}
{"id": "C272", "title": "OWL buttons send their limits", "statement": "A button that is pressed or released sends the upper or lower limit to its receiver, if the values of a block are not just being sent; other buttons send nothing. Different keys.", "quantifier": "all patches, all buttons", "why_tests_cant": "any number of buttons", "anchors": ["hvcc/generators/c2owl/templates/HeavyOwl.hpp:buttonChanged", "hvcc/generators/c2owl/c2owl.py:make_jdata"]}
{"id": "C273", "title": "[system] answers with the patch's own figures", "statement": "A message to [system] that asks for samplerate, numInputChannels, numOutputChannels, currentTime or a table's length, size or head, in words or by hash, is answered with that figure at the message's time; nothing else is answered.", "quantifier": "all messages that are no table question cut short, all contexts and tables", "why_tests_cant": "any message, any number of tables", "anchors": ["hvcc/generators/ir2c/static/HvControlSystem.c: cSystem_onMessage", "hvcc/generators/ir2c/static/HvMessage.c: msg_compareSymbol"]}
{"id": "C274", "title": "[system] is safe for every message", "statement": "No message to [system] stops the program.", "quantifier": "all messages, all contexts", "why_tests_cant": "needs every message length and content", "anchors": ["hvcc/generators/ir2c/static/HvControlSystem.c: cSystem_onMessage", "hvcc/generators/ir2c/static/HvMessage.c: msg_getHash"]}
{"id": "C275", "title": "A table is asked for by name", "statement": "[system] does not answer a table question with a number or bang in the place of the name.", "quantifier": "all messages, all contexts", "why_tests_cant": "over all numbers and hashes", "anchors": ["hvcc/generators/ir2c/static/HvControlSystem.c: cSystem_onMessage", "hvcc/generators/ir2c/static/HvMessage.c: msg_getHash"]}
{"id": "C276", "title": "[system] tells the time exactly", "statement": "currentTime is answered with the time of the message in samples.", "quantifier": "all times", "why_tests_cant": "all 32-bit times; goes wrong only after minutes", "anchors": ["hvcc/generators/ir2c/static/HvControlSystem.c: cSystem_onMessage"]}
{"id": "C277", "title": "[print] calls the print hook once with the message's text", "statement": "With a print hook set each message is printed once, with the object's label, the message itself and its text; without one nothing happens.", "quantifier": "all messages", "why_tests_cant": "all messages", "anchors": ["hvcc/generators/ir2c/static/HvControlPrint.c: cPrint_onMessage", "hvcc/generators/ir2c/static/HvMessage.c: msg_toString"]}
{"id": "C278", "title": "A table head object reports the head at that moment", "statement": "Each bang is answered with the position its table's head has then, at the bang's time; other messages are not answered, and the object stays with its table whatever it is sent.", "quantifier": "all histories of messages and head movements", "why_tests_cant": "all histories", "anchors": ["hvcc/generators/ir2c/static/HvControlTabhead.c: cTabhead_onMessage", "hvcc/generators/ir2c/ControlTabhead.py: get_C_onMessage"]}
