{"id": "C01", "title": "Conv: stepping reproduces forward, frame by frame", "statement": "For a continual convolution (kernel size k >= 2 in time, any temporal stride s >= 1, any temporal padding p <= k-1, any weights and bias, zero or replicate fill matching the padding mode), feeding a clean module one frame at a time with forward_step returns None at every step n < delay and at every step where (n - delay) is not a multiple of s, and at step n = delay + j*s returns exactly output j of forward applied to the clip (start padding included), where delay = receptive_field - 1 - padding.", "quantifier": "all kernel sizes, strides, paddings, tap functions, biases, fills, all input streams of any length, all steps", "why_tests_cant": "A test fixes one (k, s, p) and one clip; the ring-buffer index and the stride index must stay synchronised for every residue and every stream length.", "anchors": ["continual/conv.py:_ConvCoNd._forward_step_py", "continual/conv.py:_ConvCoNd.init_state", "continual/conv.py:_ConvCoNd.forward", "continual/module.py:CoModule.forward_step", "continual/module.py:CoModule.delay"]}
{"id": "C02", "title": "Conv: forward_steps(pad_end=True) on a clean module is forward", "statement": "For the same convolutions, forward_steps(x, pad_end=True) called on a clean module returns exactly forward(x): same number of outputs floor((T+2p-k)/s)+1 and same values, whenever forward accepts the clip.", "quantifier": "all kernel sizes k >= 2, strides, paddings p <= k-1, fills, clips of any length T accepted by forward", "why_tests_cant": "The end padding is produced by a different code path (cloned state, synthetic frames) than forward's padding; equality for one clip says nothing about other T mod s classes.", "anchors": ["continual/module.py:CoModule._forward_steps_impl", "continual/conv.py:_ConvCoNd.forward"]}
{"id": "C03", "title": "Pooling: stepping reproduces forward", "statement": "For a continual pooling module with temporal dilation 1 (any order-insensitive temporal aggregation such as average or max), stepping a clean module returns None except at steps delay + j*s, where it returns output j of the regular pooling of the clip.", "quantifier": "all kernel sizes, strides, paddings p < k with a fill equal to the pooling's padding value, all streams, all steps", "why_tests_cant": "The circular buffer hands the frames to the aggregation in rotated order; only a proof over all rotations shows the result never depends on the phase.", "anchors": ["continual/pooling.py:_PoolNd._forward_step", "continual/pooling.py:_PoolNd.init_state"]}
{"id": "C04", "title": "Pooling: forward_steps(pad_end=True) on a clean module is forward", "statement": "For dilation-1 pooling whose temporal fill equals the padding value of the regular pooling (zeros for average, -inf for max), forward_steps(x, pad_end=True) on a clean module equals forward(x). For max pooling with zero fill this is false: a witness clip of negative frames gives different outputs.", "quantifier": "all kernel sizes, strides, paddings, clips; for the negative part one explicit clip", "why_tests_cant": "Equality must hold for every alignment of T with the stride; the failure only appears for negative data with zero fill.", "anchors": ["continual/pooling.py:_PoolNd", "continual/pooling.py:MaxPool1d.build_from", "continual/pooling.py:MaxPool2d"]}
{"id": "C05", "title": "Delay is an exact FIFO", "statement": "A Delay(d) without shrinking, stepped on any stream, returns None for the first d steps and then at step n exactly the frame passed at step n-d; the fill value and the fill mode are never observable.", "quantifier": "all delays d >= 0, all streams of any length, all fill modes", "why_tests_cant": "The buffer is written through index % d while the index runs from -d; a test only sees a few wrap-arounds.", "anchors": ["continual/delay.py:Delay._forward_step", "continual/delay.py:Delay.init_state"]}
{"id": "C06", "title": "Delay: forward_steps(pad_end=True) returns the whole clip", "statement": "On a clean Delay(d) without shrinking, forward_steps(x, pad_end=True) equals x (which is forward(x)), forward_steps(x) equals all but the last d frames (None when there are none), and the temporary padding attribute is restored.", "quantifier": "all d, all clips", "why_tests_cant": "Interaction of the temporary padding with the generic loop must be right for every T relative to d, including T < d.", "anchors": ["continual/delay.py:Delay.forward_steps", "continual/module.py:CoModule._forward_steps_impl"]}
{"id": "C07", "title": "Skip and the shrinking Delay drop exactly the right frames", "statement": "A clean Skip(n) stepped over x returns None n times and then every input unchanged, so its emitted outputs equal forward(x) = x[n:]; a clean Delay(d, auto_shrink=True) emits exactly forward(x) = x[d:-d] over forward_steps without end padding; 'lagging' emits x[:-d].", "quantifier": "all n, d, all clips of any length", "why_tests_cant": "Length bookkeeping over all T, including clips shorter than the shrinkage.", "anchors": ["continual/skip.py:Skip", "continual/delay.py:Delay"]}
{"id": "C08", "title": "Chunking invariance", "statement": "For every network built from the library's leaf modules with Sequential, BroadcastReduce and Residual, in any reachable state: forward_steps(a followed by b) returns the concatenation of forward_steps(a) and forward_steps(b), both equal to the non-None results of calling forward_step on each frame, and all three leave the network in the same state.", "quantifier": "all networks in the grammar, all reachable states, all splits of all clips", "why_tests_cant": "Containers process clips layer by layer but frames time by time; tests cannot enumerate all nestings, states and split points.", "anchors": ["continual/container.py:Sequential.forward_steps", "continual/container.py:Sequential.forward_step", "continual/container.py:BroadcastReduce.forward_steps", "continual/module.py:CoModule._forward_steps_impl"]}
{"id": "C09", "title": "Networks: forward_steps(pad_end=True) on a clean network is forward", "statement": "For every well-formed network, forward_steps(x, pad_end=True) on a clean network returns exactly forward(x) whenever forward succeeds.", "quantifier": "all well-formed networks, all clips", "why_tests_cant": "Holds layer by layer only if each layer's end padding composes; number of architectures is infinite.", "anchors": ["continual/container.py:Sequential.forward_steps", "continual/container.py:BroadcastReduce.forward_steps", "continual/container.py:Sequential.forward"]}
{"id": "C10", "title": "Networks: emission schedule and values of forward_step", "statement": "For every well-formed network with properties delay and stride as reported by the library, stepping a clean network over a stream returns a tensor at step n iff n >= delay and stride divides n - delay, and that tensor is output (n - delay)/stride of forward on any accepted clip extending the stream so far.", "quantifier": "all well-formed networks, all streams, all steps, all extensions", "why_tests_cant": "The reported delay is an algebraic expression over receptive fields, paddings and strides; only induction over architectures ties it to the actual schedule.", "anchors": ["continual/container.py:Sequential.receptive_field", "continual/container.py:Sequential.padding", "continual/container.py:Sequential.stride", "continual/module.py:CoModule.delay"]}
{"id": "C11", "title": "The reported receptive field bounds the memory of a network", "statement": "For every well-formed network, two streams of the same length whose last receptive_field frames agree give the same result at the last step, provided enough steps have been taken.", "quantifier": "all well-formed networks, all pairs of streams", "why_tests_cant": "A universally quantified non-interference statement about unseen past frames.", "anchors": ["continual/container.py:Sequential.receptive_field", "continual/conv.py:_ConvCoNd.receptive_field", "continual/pooling.py:_PoolNd.receptive_field"]}
{"id": "C12", "title": "Algebra of receptive_field, stride, padding and delay", "statement": "For Sequential, receptive_field = 1 + sum_i (prod_{j<i} s_j)(rf_i - 1), padding = sum_i (prod_{j<i} s_j) p_i, stride is the product, delay = sum_i (prod_{j<i} s_j) delay_i; all four are unchanged by re-bracketing (nesting or flattening Sequentials); forward on T frames returns floor((T + 2*padding - receptive_field)/stride) + 1 frames for chains of convolutions and poolings.", "quantifier": "all lists of modules, all nestings, all T", "why_tests_cant": "Arithmetic identities over arbitrary-length chains with nested floor divisions.", "anchors": ["continual/container.py:Sequential.receptive_field", "continual/container.py:Sequential.stride", "continual/container.py:Sequential.padding"]}
{"id": "C13", "title": "update_state=False never changes a module, despite in-place buffers", "statement": "Calling forward_step or forward_steps with update_state=False (with or without pad_end) on any stateful module leaves every later observable result unchanged, and returns what the same call with update_state=True would have returned (for calls without pad_end), even though buffers are updated in place.", "quantifier": "all modules with in-place buffers, all states, all inputs, eval and training mode", "why_tests_cant": "Aliasing bugs show up only under particular interleavings of peeking and stepping.", "anchors": ["continual/module.py:_clone_first", "continual/module.py:CoModule.forward_step", "continual/module.py:CoModule._forward_steps_impl", "continual/delay.py:Delay._forward_step"]}
{"id": "C14", "title": "Peeking calls can be erased from any call history", "statement": "In any history of calls to a network (forward, forward_step and forward_steps, with or without update_state), deleting all forward calls and all update_state=False calls does not change the result of the remaining calls.", "quantifier": "all networks, all finite call histories", "why_tests_cant": "Quantifies over all histories and interleavings.", "anchors": ["continual/module.py:CoModule.forward_step", "continual/container.py:Sequential.forward_step", "continual/container.py:BroadcastReduce.forward_step"]}
{"id": "C15", "title": "clean_state restores a fresh network", "statement": "After any history of calls, clean_state makes a network built from leaves, Sequential, Parallel, BroadcastReduce and Residual indistinguishable from a freshly constructed one. A Conditional breaks this: its clean_state does nothing.", "quantifier": "all networks, all histories before and after", "why_tests_cant": "Any leftover index or buffer in any nested module would be visible only for some histories.", "anchors": ["continual/conv.py:_ConvCoNd.clean_state", "continual/container.py:Sequential.clean_state", "continual/container.py:Conditional"]}
{"id": "C16", "title": "State snapshots are aliases, not copies", "statement": "get_state() followed by further steps and set_state(snapshot) does not restore the module: the snapshot's buffer is the live buffer and is overwritten in place (Delay, pooling, and convolution in eval mode). Restoring does work for a copy of the buffer, and for convolutions in training mode.", "quantifier": "negative part: explicit witness; positive part: all modules, states and continuations", "why_tests_cant": "Depends on which calls happen between snapshot and restore.", "anchors": ["continual/delay.py:Delay.get_state", "continual/conv.py:_ConvCoNd.get_state", "continual/pooling.py:_PoolNd.get_state"]}
{"id": "C17", "title": "End padding is not written to the state", "statement": "For each leaf module, forward_steps(x, pad_end=True) leaves the same observable state as forward_steps(x, pad_end=False). For networks this fails: a downstream module in a Sequential consumes and stores the upstream module's end-padding outputs.", "quantifier": "positive: all leaf modules, states, clips; negative: explicit witness", "why_tests_cant": "Only visible when the stream is continued after a padded call, for all continuations.", "anchors": ["continual/module.py:CoModule._forward_steps_impl", "continual/container.py:Sequential.forward_steps"]}
{"id": "C18", "title": "pad_end with update_state=False in mid-stream", "statement": "forward_steps(x, pad_end=True, update_state=False) on a module with saved state computes the end-padding outputs from the old saved state rather than from the state after x, so its result differs from the update_state=True result; on a clean module both agree.", "quantifier": "negative: explicit witness; positive: all clean modules and clips", "why_tests_cant": "Needs mid-stream state plus both flags.", "anchors": ["continual/module.py:CoModule._forward_steps_impl"]}
{"id": "C19", "title": "BroadcastReduce is Sequential(Broadcast, Parallel, Reduce)", "statement": "For every list of at least two branches and every reduction, BroadcastReduce(branches) and Sequential(Broadcast, Parallel(branches), Reduce) return the same results from forward, forward_step and forward_steps (all flags) in corresponding states and reach corresponding states.", "quantifier": "all branch lists, reductions, inputs, states, flags", "why_tests_cant": "Two independent implementations must agree on every input and every error case.", "anchors": ["continual/container.py:BroadcastReduce", "continual/container.py:Parallel", "continual/container.py:Reduce", "continual/container.py:Broadcast"]}
{"id": "C20", "title": "Automatic delay aligns parallel branches", "statement": "With auto_delay, for stride-1 branches, every branch of a Parallel/BroadcastReduce emits at the same steps, and the reduced output at step n combines output n - delay of every branch. For stride > 1 with unequal delays this is false.", "quantifier": "all branch lists with stride 1, all streams; negative part explicit witness", "why_tests_cant": "Alignment must hold for every combination of delays.", "anchors": ["continual/container.py:Parallel.__init__", "continual/container.py:BroadcastReduce.__init__"]}
{"id": "C21", "title": "Residual adds the right frame", "statement": "For a stride-1 module m, Residual(m) stepped on a stream returns at step n the reduction of the frame aligned with m's output: frame n - delay when m preserves length or residual_shrink is 'lagging', frame n - delay/2 for residual_shrink=True, frame n for 'leading'. With residual_shrink='centered' forward_steps, and with True or 'lagging' forward_steps(pad_end=True), the branch lengths differ and the call fails or broadcasts.", "quantifier": "all well-formed stride-1 modules, all streams; negative parts explicit witnesses", "why_tests_cant": "Alignment has to hold for every delay and stream position.", "anchors": ["continual/container.py:Residual", "continual/delay.py:Delay", "continual/skip.py:Skip"]}
{"id": "C22", "title": "ParallelDispatch routes streams by its mapping in every mode", "statement": "For every (nested) mapping with valid indices, ParallelDispatch returns a structure of the same shape as the mapping whose leaves are the selected input streams, identically in forward, forward_step and forward_steps; dispatching with [0..n-1] is the identity and dispatching twice is dispatching with the composed mapping; an out-of-range index raises.", "quantifier": "all nested mappings, all input lists", "why_tests_cant": "Nested structures of unbounded depth.", "anchors": ["continual/container.py:ParallelDispatch.forward"]}
{"id": "C23", "title": "Conditional behaves as the selected branch, delay-matched", "statement": "With a predicate that always selects the same branch, Conditional stepping equals stepping that branch after delay matching, and both branches have the same reported delay. Its forward_steps ignores pad_end and update_state, so peeking with update_state=False does change the state and pad_end=True does not equal forward; with no else-branch the input passes undelayed although delay > 0.", "quantifier": "positive: all branches and streams; negative: explicit witnesses", "why_tests_cant": "Flag combinations and histories.", "anchors": ["continual/container.py:Conditional"]}
{"id": "C24", "title": "Explicit-state stepping equals stateful stepping", "statement": "For every network built from leaves, Sequential, Parallel and BroadcastReduce, threading states through the functional step (state in, state out, starting from no state) yields the same outputs as calling forward_step, at every step.", "quantifier": "all networks, all streams", "why_tests_cant": "The functional step is what gets exported to ONNX; it is separate code in every container.", "anchors": ["continual/container.py:Sequential._forward_step", "continual/container.py:BroadcastReduce._forward_step", "continual/container.py:Parallel._forward_step", "continual/onnx.py:OnnxWrapper.forward"]}
{"id": "C25", "title": "warm_up removes the start-up Nones", "statement": "After warm_up on a clean well-formed network whose reported stride is 1, every following forward_step returns a tensor; for stride s the first following step does and then every s-th.", "quantifier": "all well-formed networks, all streams after warm-up", "why_tests_cant": "Depends on the reported delay being exactly the number of missing steps for every architecture.", "anchors": ["continual/module.py:CoModule.warm_up"]}
{"id": "C26", "title": "Pointwise modules are coherent across modes", "statement": "For Lambda, Linear, Reshape, Add, Multiply, Identity and converted activations acting frame-wise, forward(x), forward_steps(x) and stacking forward_step over frames coincide and are stateless; Lambda with takes_time=True is coherent exactly when its function commutes with splitting the clip into frames. Lambda's constructor accepts a function for all modes or one for each of the three modes, and the latter are then the ones used, so coherence is theirs; a clip without frames is rejected unless the function takes whole clips. Reshape to a single dimension steps but raises IndexError on every clip.", "quantifier": "all frame functions, all clips", "why_tests_cant": "Quantifies over all user functions.", "anchors": ["continual/closure.py:Lambda", "continual/linear.py:Linear", "continual/shape.py:Reshape", "continual/convert.py:forward_stepping"]}
{"id": "C27", "title": "RNN, GRU and LSTM stream correctly", "statement": "For any recurrent cell and number of layers, forward from a clean state equals forward_steps equals the sequence of forward_step outputs; forward_steps on a split clip equals on the whole clip; update_state=False does not change the hidden state; after clean_state any stream starts over.", "quantifier": "all cells, all layer stacks, all clips and splits, all hidden states", "why_tests_cant": "Arbitrary histories and cells.", "anchors": ["continual/rnn.py:RNN", "continual/rnn.py:GRU", "continual/rnn.py:LSTM"]}
{"id": "C28", "title": "Recycling positional encoding is periodic and chunk-invariant", "statement": "Stepping adds embedding (n mod N) at step n for any number of steps; forward_steps on consecutive chunks of at most N frames gives the same as stepping; longer clips raise. With the default settings a forward call advances the stream index, so forward is not free of side effects; with forward_update_index_steps=0 it is. clean_state restarts at embedding 0.", "quantifier": "all N, embeddings, streams, chunkings; negative part explicit witness", "why_tests_cant": "Periodicity over unbounded streams.", "anchors": ["continual/positional_encoding.py:RecyclingPositionalEncoding"]}
{"id": "C29", "title": "Single-output attention equals softmax attention over the last N tokens", "statement": "For every sequence length N, query index, and stream of (query, key, value) tokens, step n >= N-1 returns exactly the scaled-dot-product softmax attention of the selected query over the last N keys and values, and earlier steps return None.", "quantifier": "all N >= 1, all query indices, all token streams, all steps", "why_tests_cant": "Sliding memories must equal the window for every step.", "anchors": ["continual/multihead_attention/single_output_mha.py:_scaled_dot_product_attention_step", "continual/multihead_attention/mha_base.py:MultiheadAttentionBase._forward_step"]}
{"id": "C30", "title": "Retroactive attention equals full softmax attention over the window", "statement": "For every N >= 2 and every token stream, step n >= N-1 of the retroactive module returns exactly the N x E attention output of all window queries over the window keys and values, although it is computed by incremental additions and subtractions.", "quantifier": "all N, all token streams, all steps (exact arithmetic)", "why_tests_cant": "The incremental update invariant must survive arbitrarily many steps.", "anchors": ["continual/multihead_attention/retroactive_mha.py:_scaled_dot_product_attention_step"]}
{"id": "C31", "title": "Attention modules: chunking, peeking and start-up", "statement": "For both attention modules, forward_steps over a clip returns the stacked non-None step outputs and is chunk invariant; forward_steps/forward_step with update_state=False restores the state. On a module without state the peeking forward_steps fails.", "quantifier": "all streams and splits; negative part explicit witness", "why_tests_cant": "Arbitrary histories.", "anchors": ["continual/multihead_attention/mha_base.py:MultiheadAttentionBase.forward_step", "continual/multihead_attention/mha_base.py:MultiheadAttentionBase.forward_steps"]}
{"id": "C32", "title": "call_mode dispatch and propagation", "statement": "Calling a module runs exactly the method named by its call mode; assigning call_mode on a container reaches every descendant; inside a single call_mode context every call uses the context's mode and afterwards the previous behaviour is back. Nesting two contexts breaks this: after the inner one exits, the outer mode is ignored and later contexts never take effect.", "quantifier": "all module trees, all modes; negative part explicit witness", "why_tests_cant": "Global mutable state; depends on the nesting of contexts.", "anchors": ["continual/module.py:_CallModeContext", "continual/module.py:CoModule._call_impl", "continual/module.py:CoModule.call_mode"]}
{"id": "C33", "title": "temporary_parameter restores the attribute", "statement": "On normal exit temporary_parameter leaves every attribute of the object as before (deleting it if it did not exist), for any nesting depth; if the body raises, the temporary value stays, so a failing container call leaves its child in a different call mode.", "quantifier": "all objects, attributes, values, nestings; negative part explicit witness", "why_tests_cant": "Exceptional exits and nestings.", "anchors": ["continual/utils.py:temporary_parameter"]}
{"id": "C34", "title": "Flattened state dicts round-trip", "statement": "For every module tree, saving with flatten and loading with flatten into a module of the same structure restores every parameter, whether or not the flattened names are unique.", "quantifier": "all parameter trees and names", "why_tests_cant": "Name collisions occur only for particular trees.", "anchors": ["continual/utils.py:state_dict", "continual/utils.py:load_state_dict"]}
{"id": "C35", "title": "ONNX state plumbing is lossless", "statement": "For every nested state shape, un-flattening a flat list of states by the reported state shape and flattening again is the identity; the exported wrapper's flat stepping yields the same outputs as forward_step; the number of state input names equals the number of flat states and dynamic-axis flags line up one to one. For Conditional the flat state count does not match.", "quantifier": "all module trees, all streams; negative part explicit witness", "why_tests_cant": "Arbitrary nesting.", "anchors": ["continual/onnx.py:_shape_list", "continual/onnx.py:OnnxWrapper", "continual/utils.py:flatten"]}
{"id": "C36", "title": "Convolution with kernel size 1 in time and stride or padding", "statement": "A convolution with temporal kernel 1 and stride s > 1 emits at every forward_step although its stride says every s-th, because its empty buffer makes it forget its stride phase between calls; so stepping does not equal forward.", "quantifier": "explicit witness for the failure, general statement of what it does for all streams", "why_tests_cant": "Edge configuration that no test instance covers.", "anchors": ["continual/conv.py:_ConvCoNd.get_state", "continual/conv.py:_ConvCoNd._forward_step_py"]}
{"id": "C37", "title": "Convolution or pooling with padding of at least the kernel size", "statement": "Let the temporal padding p of a convolution be at least its kernel size k >= 2 and e = p-(k-1). Step n returns output (n+e)/s of forward if n > 0 and s divides n+e, and None otherwise; so stepping, also when ended by forward_steps(pad_end=True), never produces the first e/s+1 outputs of forward and produces all others. A pooling layer with such a padding raises in forward.", "quantifier": "all kernel sizes, strides, paddings >= k, weights, clips and splits of a clip into single steps and a final chunk", "why_tests_cant": "The loss depends on the relation of padding, kernel and stride; tests cover padding below the kernel size only.", "anchors": ["continual/conv.py:_ConvCoNd.init_state"]}
{"id": "C38", "title": "Dilated pooling", "statement": "With temporal dilation > 1 the buffer index wraps at the kernel size instead of the buffer length, so stepping aggregates wrong frames; and the reported receptive field d*k is larger than the true d*(k-1)+1, so the reported delay is wrong.", "quantifier": "explicit witnesses; the true first-output step is stated for all k, d", "why_tests_cant": "A short test clip (as in the test-suite) only reaches the first output.", "anchors": ["continual/pooling.py:_PoolNd._forward_step", "continual/pooling.py:_PoolNd.receptive_field"]}
{"id": "C39", "title": "Stacked Parallel stages during start-up", "statement": "A Sequential with two consecutive Parallel stages (or a ParallelDispatch between them) raises on forward_step while a delayed branch of the first stage still returns None, because None is passed into the next stage.", "quantifier": "explicit witness", "why_tests_cant": "Only happens with delays inside such stacks.", "anchors": ["continual/container.py:Sequential.forward_step", "continual/container.py:Parallel.forward_step"]}
{"id": "C40", "title": "Retroactive transformer plumbing", "statement": "RetroactiveUnity(delay) is specified to return the last delay+1 frames in order; it does so for the first 2*delay steps but its index wraps at delay instead of delay+1, so from step 2*delay on the returned window is wrong.", "quantifier": "explicit witness; positive part for all delays and early steps", "why_tests_cant": "Needs streams longer than the test clip.", "anchors": ["continual/transformer.py:RetroactiveUnity"]}
{"id": "C41", "title": "Logging once", "statement": "A logger wrapped to log once forwards, in any sequence of calls and however often it is fetched again, exactly the messages whose hash was not seen before: each distinct message at most once and, if no two messages have the same hash, each exactly once. The stronger claim that no first occurrence is ever dropped is false: messages are compared by hash, and a warning with argument -1 hides the same warning with argument -2. Messages with unhashable arguments raise. On other ranks than 0 nothing is forwarded.", "quantifier": "all call sequences", "why_tests_cant": "All histories.", "anchors": ["continual/logging.py:once", "continual/logging.py:if_rank_zero"]}
{"id": "C42", "title": "Conversion preserves forward and is idempotent", "statement": "continual() applied to a module tree of supported torch modules yields a continual network with the same forward function and the same weights (up to the data type), and applying it again to the result returns the very same module. The stronger claim that applying it again changes nothing is false for torch modules that are changed in place (activations, norms): a second application, or a module that occurs twice in the tree, makes stepping raise. A failed conversion leaves earlier modules changed; convolutions lose a non-default data type; max pooling loses return_indices.", "quantifier": "all module trees", "why_tests_cant": "All trees.", "anchors": ["continual/convert.py:continual", "continual/container.py:Sequential.build_from"]}
{"id": "C43", "title": "Training mode does not change streaming results", "statement": "A convolution returns the same outputs when stepped in training mode (buffer copied) and in eval mode (buffer in place), for any interleaving of train()/eval() switches between steps.", "quantifier": "all streams, all switch schedules", "why_tests_cant": "All interleavings.", "anchors": ["continual/conv.py:_ConvCoNd._forward_step_py"]}
{"id": "C44", "title": "Network-wide in-place buffers do not interfere", "statement": "Running any network on a shared memory in which each leaf owns a buffer that is updated in place gives the same outputs as the value semantics in which every step returns a new state, for every history of updating and peeking calls.", "quantifier": "all networks, all call histories", "why_tests_cant": "Global separation invariant.", "anchors": ["continual/module.py:CoModule.forward_step", "continual/container.py:Sequential.forward_step"]}
{"id": "C45", "title": "Nesting Sequentials is not observable", "statement": "co.Sequential(a..., co.Sequential(b...), c...) and co.Sequential(a..., b..., c...) behave identically under every sequence of forward, forward_step, forward_steps (any flags, any argument) and clean_state calls: same results, or the same exception at the same call; and they report the same stride, padding, receptive field and delay.", "quantifier": "all module lists a, c and non-empty b in any state, all call histories", "why_tests_cant": "A test compares one nesting on one history; the claim is about every bracketing and every interleaving of calls and flags.", "anchors": ["continual/container.py:528-760", "continual/module.py:192-292"]}
{"id": "C46", "title": "co.Linear with the default channel_dim on (B, C, T) inputs", "statement": "With the library's (B, C, T) layout, co.Linear(channel_dim=-1), the default and what co.continual(nn.Linear) creates, applies its map along time in forward and forward_steps but along channels in forward_step: forward raises unless T equals in_features, and when T equals in_features it silently differs from stepping. With channel_dim=1 all modes agree (C26). With channel_dim=2 clips are handled as with -1 and every frame is rejected.", "quantifier": "raising: all sizes, weights and clips; disagreement: explicit witness", "why_tests_cant": "The repository test feeds a (N, T, C) sample in the -1 case, so the disagreement on the library's own layout is never exercised, and no test covers all sizes.", "anchors": ["continual/linear.py:64-97", "continual/convert.py:268-269"]}
{"id": "C47", "title": "Attention snapshots", "statement": "A state obtained with get_state from an attention module after start-up is unaffected by any later calls, so set_state restores the module. A snapshot taken during start-up is not: stepping advances the start-up counter inside the snapshot, and the restored module answers too early.", "quantifier": "all modules, states after start-up, later call sequences; negative part explicit witness", "why_tests_cant": "Aliasing shows only for snapshots taken in the start-up phase and used later.", "anchors": ["continual/multihead_attention/mha_base.py:MultiheadAttentionBase._forward_step", "continual/multihead_attention/single_output_mha.py:SingleOutputMultiheadAttention.get_state"]}
{"id": "C48", "title": "Explicit-state attention stepping", "statement": "After start-up, _forward_step of an attention module writes nothing, so one state can be stepped many times with the same result. During start-up it increments the counter of the state it was given: stepping the same state twice with the same token gives None and then a value.", "quantifier": "all modules, tokens and states after start-up; negative part explicit witness", "why_tests_cant": "Needs reuse of one state tuple during start-up.", "anchors": ["continual/multihead_attention/mha_base.py:MultiheadAttentionBase._forward_step"]}
{"id": "C49", "title": "Retroactive encoder layer: step vs forward", "statement": "A fresh RetroactiveTransformerEncoderLayer with sequence_len N >= 2, fed token by token, returns None before token N-1 and then, for tokens N-1 to 2N-3, exactly what forward returns for the last N tokens. From token 2N-2 on the residual branch hands over a stale window (C40), so the outputs no longer equal forward.", "quantifier": "all configurations supported by the step functions, all token-wise norm/feed-forward functions, all streams and all steps; negative part explicit witness", "why_tests_cant": "Tests feed a single window; the error starts after a second window length.", "anchors": ["continual/transformer.py:RetroactiveTransformerEncoderLayer", "continual/transformer.py:RetroactiveUnity"]}
{"id": "C50", "title": "Single-output encoder layer: step vs forward", "statement": "A fresh SingleOutputTransformerEncoderLayer returns None before token N-1. With single_output_forward=True and any query index in range every later step is the one token forward returns for the last N tokens; with the default settings it is the last token of forward on the last N tokens. With single_output_forward=False and another query index the residual is not delayed, and the step adds the newest token to the attention of an older one.", "quantifier": "all configurations, query indices, token-wise functions, streams and steps; negative part explicit witness", "why_tests_cant": "Tests use query index -1 and one window.", "anchors": ["continual/transformer.py:SingleOutputTransformerEncoderLayer", "continual/transformer.py:SelectOrDelay"]}
{"id": "C51", "title": "TransformerEncoder: number of layers and step vs forward", "statement": "With one layer every step from token N-1 on is the last token of forward on the last N tokens. With two layers that holds (forward returns a single token) for tokens N-1 to 2N-3 and fails later. num_layers >= 3 raises an AssertionError at construction, and num_layers <= 0 builds the two-layer encoder.", "quantifier": "all layer parameters, norms, streams, steps and layer counts; failing part explicit witness", "why_tests_cant": "Layer counts and streams are unbounded; tests use two layers and one window.", "anchors": ["continual/transformer.py:TransformerEncoder", "continual/transformer.py:TransformerEncoderLayerFactory"]}
{"id": "C52", "title": "Restarting a network mid-stream", "statement": "Two copies of a new network without recurrent modules that see the same frames b, after prefixes of arbitrary content whose lengths differ by a multiple of the reported stride, return the same results at every step from frame receptive_field-1 of b on. In particular clean_state() called after a multiple of the stride changes only the next receptive_field-1 steps; at any other moment the cleaned network and the running one never return a frame at the same step. The bound is sharp, and fails for recurrent modules.", "quantifier": "all well formed networks (convolutions, pools, delays, skips, frame maps, Sequential, BroadcastReduce, Residual), all prefixes, continuations and restart times; negative parts explicit witnesses", "why_tests_cant": "Restart times, prefixes, networks and stream lengths are unbounded.", "anchors": ["continual/module.py:CoModule.receptive_field", "continual/module.py:CoModule.clean_state", "continual/container.py:Sequential", "continual/container.py:BroadcastReduce"]}
{"id": "C53", "title": "Batch entries do not influence each other", "statement": "If every frame operation of a network (kernels, pooling, frame maps, recurrent cells, reductions) works on each entry of a batch separately, then for every history of forward, forward_step, forward_steps and clean_state calls, and for steps with an explicit state, the outputs restricted to one entry are the outputs of the network run on that entry alone, an exception is raised for the batch exactly when it is raised for the entry, and the other entries have no influence. This needs the absence of Conditional: its predicate sees the whole batch, and one entry then decides the branch of all others.", "quantifier": "all networks, all initial buffers and states that agree, all histories of calls, all projections from a batch to an entry; the negative part an explicit witness", "why_tests_cant": "Networks, histories and batch contents are unbounded; tests compare one batch with one forward.", "anchors": ["continual/conv.py:_ConvCoNd", "continual/delay.py:Delay", "continual/rnn.py:RNN", "continual/container.py:Sequential", "continual/container.py:BroadcastReduce", "continual/container.py:Conditional"]}
{"id": "C54", "title": "Superposition and equivariance over time", "statement": "A new network built of linear frame operations without biases answers the frame-wise sum of two input histories with the sum of the answers, call by call and at the same steps. A map on frames that fixes zero, is additive and commutes with each frame operation of a new network (a scaling, a spatial shift or flip, a permutation of channels) commutes with the whole network over every history of calls. With a bias superposition fails.", "quantifier": "all such networks, all pairs of histories and all such maps; the negative part an explicit witness", "why_tests_cant": "Networks, maps and histories are unbounded.", "anchors": ["continual/conv.py:_ConvCoNd.forward_step", "continual/delay.py:Delay", "continual/pooling.py", "continual/container.py:BroadcastReduce"]}
{"id": "C55", "title": "Convolution streaming on whole tensors", "statement": "For co.Conv1d/2d/3d with any channel counts, groups, bias, spatial kernel, stride, padding and dilation, forward_step on the frames x[:, :, t] of a clip returns the slices y[:, :, j] of the tensor y that forward (torch's n-dimensional convolution) returns for the clip, on the schedule given by delay and temporal stride; and single steps followed by forward_steps(pad_end=True) on the rest, stacked, give exactly y. forward accepts every clip with T + 2*padding >= kernel size, and the result has the documented shape; each of its entries is the bias plus the sum over the input channels of the group and the kernel positions that meet an input position of weight times input (with replicate padding, positions beyond the ends read the ends). With padding_mode='replicate' and the default temporal_fill (zeros) this fails.", "quantifier": "all such configurations with temporal padding below the kernel size and matching fill, all batch and spatial sizes, all clips, all split points; the negative part an explicit witness", "why_tests_cant": "Shapes, ranks, group structures, weights and clips are unbounded; a wrong index in the split of the n-dimensional sum into per-step sums can hide in configurations not tried.", "anchors": ["continual/conv.py:_ConvCoNd._forward_step_py", "continual/conv.py:_ConvCoNd.forward", "continual/conv.py:_ConvCoNd.init_state", "continual/module.py:CoModule.forward_steps"]}
{"id": "C56", "title": "Pooling streaming on whole tensors", "statement": "For co.AvgPool1d/2d/3d and co.MaxPool1d/2d/3d with temporal dilation 1 and any spatial kernel, stride, padding and (for max) spatial dilation, forward_step on the frames x[:, :, t] of a clip returns the slices y[:, :, j] of the tensor y that forward (torch's n-dimensional pooling) returns, on the schedule given by delay and temporal stride; single steps followed by forward_steps(pad_end=True) on the rest, stacked, give y unless ceil_mode adds a last output in time. Each entry of y is the maximum of its window in the clip, or the sum divided by the number of entries of the window, with those in the padding unless count_include_pad=False, or by divisor_override. divisor_override, count_include_pad=False with temporal padding, and ceil_mode=True with a clip that the stride does not fit each make stepping differ from forward.", "quantifier": "all such configurations with neutral fill or no temporal padding, all batch, channel and spatial sizes, all clips, all split points; the negative parts explicit witnesses", "why_tests_cant": "Ranks, window geometries, divisors at the borders and clips are unbounded; the project's tests use a few shapes with the default arguments.", "anchors": ["continual/pooling.py:_PoolNd._forward_step", "continual/pooling.py:_PoolNd.init_state", "continual/pooling.py:AvgPool2d", "continual/pooling.py:AvgPool3d", "continual/pooling.py:MaxPool3d"]}
{"id": "C57", "title": "An exported network continues the stream", "statement": "Let a network from the public constructors consume a prefix by forward_step that is longer than its delay. The function that the ONNX export makes of it (OnnxWrapper), started with the states the object then holds and fed its own returned states, returns for the following frames exactly what forward on the whole clip has at those steps, None at the others; it takes and returns 2 state tensors per Delay, 1 per Skip, 3 per convolution or pooling, 1 or 2 per recurrent module and none for stateless modules. For any stepping history in which every stateful module holds a state, outputs, states and errors are those of forward_step on the object. Once a network has returned something all states exist; before that the object may hold too few states to start the exported function.", "quantifier": "all networks, all prefixes, all continuations, all frame types; negative part explicit witness", "why_tests_cant": "The project's ONNX tests compare a few steps of a few fixed models; here nesting depth, module parameters and stream length are unbounded.", "anchors": ["continual/onnx.py:OnnxWrapper.forward", "continual/container.py:Sequential._forward_step", "continual/container.py:BroadcastReduce._forward_step", "continual/conv.py:_ConvCoNd._state_shape", "continual/delay.py:Delay._state_shape", "continual/module.py:CoModule.forward_step"]}
{"id": "C58", "title": "Building a Sequential step by step, and slicing it", "statement": "co.Sequential(*modules), co.Sequential(OrderedDict) with acceptable names, and appending the modules one by one give the same network, except that a Broadcast without a stream count that is followed by a Parallel only through append keeps no count, and every call then raises. append stores under the name str(len(net)): if a child already has this name it is replaced. Slices keep the children's names, so append to net[a:b] replaces the module at position b-2a when 0 < a, 2a <= b and a < b, and adds at the end otherwise. net[:n] followed by net[n:] is indistinguishable from net in every history of calls. A name that is empty, contains a dot or is an attribute raises KeyError.", "quantifier": "all module lists, names, slice bounds and call histories", "why_tests_cant": "Tests append to whole networks of fixed size; the name clash depends on the slice bounds and the equivalences are over all histories.", "anchors": ["continual/container.py:609-628", "continual/container.py:719-726", "continual/container.py:137-144"]}
{"id": "C59", "title": "append to and slices of Parallel and BroadcastReduce", "statement": "The constructors store delay and receptive field of the branches. append to a BroadcastReduce adds the branch without aligning it and leaves both stored values: it agrees with the constructor when auto_delay is off and the new branch has the common stride and no larger delay or receptive field; otherwise the reported values are stale, frames of different times are combined, and a branch of another stride is accepted. A slice of a BroadcastReduce sums its branches whatever the reduction was, and raises for fewer than two branches. A Parallel that grows after a Broadcast inferred its number of streams raises IndexError.", "quantifier": "all branches, reductions and slice bounds; negative parts: explicit witnesses and, for Parallel, all frame maps", "why_tests_cant": "No test appends to or slices these containers; the agreement is over all branches.", "anchors": ["continual/container.py:259-302", "continual/container.py:792-846", "continual/container.py:719-726"]}
{"id": "C60", "title": "Adaptive pooling modules pool the last kernel_size frames", "statement": "AdaptiveAvgPool2d/3d and AdaptiveMaxPool2d/3d without temporal padding: from step kernel_size-1 on, every stride-th forward_step returns exactly what forward returns for the last kernel_size frames stacked to a clip, and None in between; forward_steps on T >= kernel_size frames returns these for all (T-kernel_size)/stride+1 windows, with or without pad_end. Hence forward_steps equals forward on clips of exactly kernel_size frames, as the documentation asserts; it never does on clips with a second window, and it need not with temporal padding, since forward ignores kernel_size, stride and padding. output_size[0] other than 1 raises AssertionError.", "quantifier": "all batch sizes, channels, spatial shapes, output sizes, kernel sizes, strides, fills and frame streams", "why_tests_cant": "The tests check one clip of exactly kernel_size frames and 1x1 outputs; overlapping adaptive windows, strides and streams are not covered.", "anchors": ["continual/pooling.py:924-1230", "continual/pooling.py:152-219"]}
{"id": "C61", "title": "Attention on batches of tensors, in every layout", "statement": "For SingleOutput- and RetroactiveMultiheadAttention with packed in_proj_weight (3E x E), optional biases and out_proj (E x E): every entry that forward, forward_step and forward_steps return for batch element b is the multi-head attention formula (projection of head h from rows h*D.. of each third of in_proj_weight, softmax-weighted mean of the values, output projection of the joined heads) of the tokens of batch element b alone. forward keeps the layout (L,N,E), (N,L,E) with batch_first, (N,E,L) with batch_first and embed_dim_second, (L,E,N) with embed_dim_second alone. Steps take (N,E); single-output steps return (N,E), retroactive steps the layout of a clip, equal to forward on the last sequence_len tokens. forward_steps after any earlier steps returns one output per complete window, in the layout of a clip for the single-output module if batch_first or N = 1, with one more dimension otherwise; the retroactive module returns (T,L,N,E), (N,T,L,E), (N,E,T,L) or (T,E,L,N).", "quantifier": "all batch sizes, head counts, head dimensions, window lengths, query indices, weights, biases, streams and layout flags", "why_tests_cant": "Tests compare a few random shapes with torch up to a tolerance; whether batch entries and heads never mix, and the index bookkeeping of views and transposes, is a statement about all shapes and values.", "anchors": ["continual/multihead_attention/mha_base.py:103-223", "continual/multihead_attention/mha_base.py:302-544", "continual/multihead_attention/single_output_mha.py:268-400", "continual/multihead_attention/retroactive_mha.py:325-374"]}
{"id": "C62", "title": "Recurrent modules on batches of tensors, and their conversion", "statement": "For co.RNN, co.GRU and co.LSTM (any sizes, layers, bias or not, LSTM projections): every entry that forward, forward_step and forward_steps return for batch element b, and every entry of the state, is that of the documented recurrences on the frames of batch element b alone, starting from the given or saved state (zeros if none), for any mixture of calls with and without update_state. After set_state(h0) streaming x returns forward(x, h0). A batch of another size than the saved state raises RuntimeError. build_from on a unidirectional torch module, batch_first or not, gives a module with the same weights whose forward is that of the torch module up to the layout (B,C,T). On a bidirectional module it keeps the forward direction if there is one layer; with two layers of equal input and output size it silently gives the second layer the weights of the first layer's reverse direction; with two layers of input size 1 it copies the one input column to all columns; otherwise it raises RuntimeError. Another number of channels raises RuntimeError.", "quantifier": "all sizes, weights, nonlinearities, batches, streams, call sequences and states", "why_tests_cant": "Tests compare one random network of each kind with torch for one sequence; gate order, batch independence, state shapes and the pairing of weights by zip are statements about all shapes, weights and call sequences.", "anchors": ["continual/rnn.py:119-224", "continual/rnn.py:337-439", "continual/rnn.py:591-697"]}
{"id": "C63", "title": "What an exception leaves behind in a network", "statement": "When forward_step or forward_steps raises inside a network, nothing is undone: in a Sequential the modules before the failing one have taken the input and the later ones have not been touched; in Parallel and BroadcastReduce the branches before the failing one are ahead of the others, and if the reduction raises every branch has taken the input. A single module is unchanged, unless the end padding failed after the clip was stored. With update_state=False nothing changes. The first of two stages therefore always reflects every input, and the second exactly the results it was given. Two strided streams of which one misses a frame never again give a common result. clean_state after any history, including calls that raised, gives back the new network, and the reported receptive field, stride, padding and delay never change.", "quantifier": "all networks, inputs, flags, and histories of calls any of which may raise (Conditional excluded for clean_state and for forward_steps with update_state=False)", "why_tests_cant": "The place of the failure, the network and the history before and after it are unbounded; tests check that an exception is raised, not the state it leaves.", "anchors": ["continual/container.py:326-347", "continual/container.py:639-677", "continual/container.py:871-888", "continual/module.py:213-292"]}
{"id": "C64", "title": "A stream of any length is processed in bounded memory", "statement": "After any history of forward, forward_step, forward_steps and clean_state calls, including calls that raise and calls on wrong input, every stateful module of a network stores either nothing or exactly what its constructor arguments prescribe: d frames for a Delay, (k-1)*(k-1) partial results for a convolution, d*(k-1)+1 frames for a pooling, one hidden state per layer for a recurrent module; the counters stay within bounds given by the same arguments. Except by clean_state an allocated buffer is never freed or resized. The multi-head attention modules store per head exactly sequence_len keys and values (and the awaited queries), retroactive attention in addition sequence_len-1 queries, denominators and numerators.", "quantifier": "all networks with positive kernel sizes and strides, all histories of calls of any length, any of which may raise, all attention configurations", "why_tests_cant": "That nothing grows with the length of the stream is a statement about unboundedly many calls, in any order; tests run short streams and never look at the size of the state.", "anchors": ["continual/delay.py:65-111", "continual/conv.py:143-168", "continual/conv.py:200-278", "continual/pooling.py:152-212", "continual/rnn.py:183-222", "continual/multihead_attention/single_output_mha.py:94-117", "continual/multihead_attention/retroactive_mha.py:101-144"]}
{"id": "C65", "title": "Networks of tensor modules: every shape and every entry of stepping is that of forward", "statement": "A network built from convolutions, poolings, recurrent modules, channelwise modules, channel Linear layers and Delays with Sequential and BroadcastReduce (elementwise or concat) in any nesting, new and with matching shapes, behaves on tensors as documented: forward on a clip (B, C, T, *S) returns a clip of the documented shape; feeding its frames one by one gives nothing for the accumulated delay and then, every accumulated stride, exactly the next frame of forward's output; forward_steps without padding returns those frames stacked (None if there are none) and leaves the same state, so a clip followed by single frames is one stream; forward_steps(pad_end=True) returns exactly forward's tensor.", "quantifier": "all networks of any depth and width whose branches have the same delay, stride and output length, all batch sizes, channels, spatial shapes, clip lengths, kernel sizes, strides, paddings, weights and data", "why_tests_cant": "The nesting, the tensors and their shapes are unbounded; tests fix a few architectures and compare rounded numbers. Shapes that change from module to module are not visible in a model with one kind of frame.", "anchors": ["continual/container.py:64-106", "continual/container.py:633-677", "continual/container.py:871-896", "continual/module.py:213-292", "continual/linear.py:79-97", "continual/delay.py:57-126", "continual/convert.py:80-148"]}
{"id": "C66", "title": "Changing the batch size in the middle of a stream raises, except to 1, which repeats the frame for every sample", "statement": "A convolution (kernel size above 1), pooling or Delay (at least one step) whose stream began with batch size n refuses with RuntimeError, in forward_step and in forward_steps, every frame whose batch size is neither n nor 1, at any later time. A frame of batch size 1 is accepted and acts as the frame with the same sample repeated n times: all later results, of any calls with any flags, are those of the stream with the repeated frames, so for a convolution or pooling the results of forward on that clip, always of batch size n.", "quantifier": "all constructor arguments, batch sizes, shapes, data and all histories of forward_step and forward_steps calls after the first frame", "why_tests_cant": "The batch size may change at any of unboundedly many steps and the effect of an accepted frame lasts for the length of the buffer; tests use one batch size per stream.", "anchors": ["continual/conv.py:143-155", "continual/conv.py:200-278", "continual/pooling.py:152-212", "continual/delay.py:65-126"]}
{"id": "C67", "title": "One module object used several times in a network", "statement": "If the same module object occurs several times in a network, forward and stepping with explicit state (the exported code) give what a network of separate copies gives, in every case. forward_step and forward_steps do so, for every history of calls including raising ones, if each object that occurs more than once keeps no state (Lambda, Linear, activations, Reshape, Reduce, Delay(0), containers of these). A shared stateful object is one stream for all its occurrences: the branches of BroadcastReduce(m, m) see every frame twice, Sequential(delay, delay) emits after d instead of 2d steps, and Sequential(conv, conv) disagrees with its own forward and with its own export; a Conditional with one object in both branches is that object.", "quantifier": "all networks (trees of containers over references to objects), all objects, all assignments of objects to occurrences, all call histories; BroadcastReduce(m, m): all objects and streams; Delay: all d >= 1 and streams", "why_tests_cant": "Sharing patterns and histories are unbounded, and the failure is silent: shapes and emission times can look plausible.", "anchors": ["continual/container.py:Sequential", "continual/container.py:Parallel", "continual/container.py:BroadcastReduce", "continual/container.py:Conditional", "continual/module.py:213-292"]}
{"id": "C68", "title": "What holds bit for bit in floating point", "statement": "Without any law of arithmetic (rounding, overflow, infinities and NaN allowed): which steps return an output depends on the numbers not at all; every output of a network without recurrent modules depends, bit for bit, on the last receptive_field frames only, so that one corrupted frame (NaN, outlier) changes no output before it and none that is receptive_field or more steps after it, in stepping and in forward; more generally results depend only on the frames that a run on marks says. A convolution step computes a fixed expression of its window, the same at every position of the stream. Networks without convolutions whose poolings ignore the order of their window give forward's results bit for bit. Retroactive attention depends on the last 2N-1 tokens only. Not guaranteed, with counterexamples in binary32: a convolution step equals forward (other order of additions; NaN instead of infinity with an infinite weight), an average pooling step returns the same at another position of the stream (the ring buffer is summed in rotated order), a recurrent module ever forgets a NaN, retroactive attention forgets a NaN when it leaves the window of N tokens, or is close to forward after a large value has left the window.", "quantifier": "all operations on frames and numbers, all networks built by Sequential, BroadcastReduce and Residual from convolutions, poolings, delays, element-wise and recurrent modules, all streams, all corrupted frames and positions, all histories of calls (influence); all attention configurations supported by the step functions and all tokens", "why_tests_cant": "Tests compare with a tolerance on well-scaled random inputs; rounding, overflow and NaN depend on the values and on the position in an unbounded stream.", "anchors": ["continual/conv.py:186-270", "continual/pooling.py:160-219", "continual/container.py:Sequential", "continual/multihead_attention/retroactive_mha.py:47-144", "continual/rnn.py"]}
{"id": "C69", "title": "Linear and Reshape on tensors of any rank", "statement": "co.Linear(cin, cout, channel_dim=d) acts on dimension d of a tensor of any rank (negative d from the end): it raises IndexError if there is no such dimension, RuntimeError if its size is not cin, and otherwise returns the tensor with that dimension of size cout, every entry being the bias plus the weighted sum over that dimension. On clips (B, C, T, *S) it does what it does to every frame exactly for channel_dim 0, 1 and the spatial dimensions counted from the end (or where it always raises); for every other value clips and frames disagree. co.Reshape to two or more dimensions does to a clip what it does to each of its frames, exceptions included; to one dimension it steps but raises on every clip.", "quantifier": "all ranks, shapes, values of channel_dim, weights, biases and entries; all target shapes, with or without an inferred dimension", "why_tests_cant": "Tests use one rank and one or two values of channel_dim; the exact set of coherent values ranges over all integers and all numbers of spatial dimensions.", "anchors": ["continual/linear.py:64-97", "continual/shape.py:48-65"]}
{"id": "C70", "title": "Hooks on the modules of a network", "statement": "Registering forward (pre-)hooks on modules: hooks that return None change no value, state or exception in any mode. A successful call runs the hooks of each module at most once, all of them, pre-hooks before hooks and each in registration order; those of the called module exactly once; forward runs those of all modules except recurrent children of containers. Hooks that apply a function to each frame act like pointwise modules before and after the module for every history of calls, so stepping gives forward's frames on the reported schedule, and the reported numbers do not change. Exceptions to all this, stated exactly: hooks on torch modules converted by forward_stepping run twice in the stepping modes (so stepping and forward disagree), hooks on recurrent children are skipped in forward only, hooks on the branch of a Conditional are skipped in stepping only, and a hook is called with None while a module has no output yet.", "quantifier": "all networks of numbered modules (leaves, Sequential, Parallel, BroadcastReduce, Conditional), all hooks (functions that may raise), all modes, all inputs, all histories of calls", "why_tests_cant": "A test registers a few hooks on a few modules and sees a few values; which hooks run, how often and whether stepping still agrees with forward depends on the nesting, the mode and the kind of each module.", "anchors": ["continual/module.py:341-413", "continual/convert.py:38-114", "continual/container.py:58-61", "continual/container.py:633-677", "continual/container.py:871-896", "continual/container.py:1041-1070"]}
{"id": "C71", "title": "Transformer layers and encoders over any sequence of calls", "statement": "For a transformer encoder layer or encoder of window size N built from co.SingleOutput- and co.RetroactiveTransformerEncoderLayer, fed with frames (forward_step) and clips (forward_steps) that continue one stream of tokens, with calls of forward in between: there is no output before time N-1; from then on every call gives the outputs for exactly the times it was fed, on the layout (B, E) for a frame and (B, E, count) for a clip; and forward answers for its own clip only and neither reads nor changes the stream. Single-output layers and the one-layer encoder give, for each time, the chosen token of the plain layer (attention over the last N tokens, residual, norms, feed-forward network) applied to the window, in every call-mode context. The retroactive layer gives all N tokens of the window, but from time 2(N-1) on adds them to tokens of wrong times, so the two-layer encoder agrees with forward on the window before time 2(N-1) and in general not after.", "quantifier": "all windows N, numbers and sizes of heads, weights, biases, norms and activations (arbitrary functions), batch sizes, query indices, clip lengths, token streams, sequences of calls, contexts per call", "why_tests_cant": "Tests feed one stream in one pattern with one window size and stop before the residual becomes stale; agreement over all interleavings, lengths and sizes is not a finite statement.", "anchors": ["continual/transformer.py:151-406", "continual/transformer.py:426-599", "continual/module.py:341-413", "continual/container.py:633-677"]}
{"id": "C72", "title": "The two-layer encoder inside of a call-mode context", "statement": "with co.call_mode(\"forward_step\"): encoder(x) with a two-layer TransformerEncoder gives no output for N-1 steps and raises AssertionError at the N-th, because the context also governs the modules that the wrapper of the second layer calls; with co.call_mode(\"forward_steps\"): encoder(clip) gives the right token for a clip of exactly one window and raises RuntimeError for a longer one. The same calls by method name succeed.", "quantifier": "all windows N >= 2, sizes, weights, batch sizes, norms, streams and clip lengths", "why_tests_cant": "The failure depends on which of the nested modules are called while a context is active and on what they then see; a test sees one size and one moment.", "anchors": ["continual/module.py:94-122", "continual/module.py:341-413", "continual/transformer.py:426-599", "continual/closure.py:56-76"]}
{"id": "C73", "title": "Converting a torch TransformerEncoder", "statement": "co.TransformerEncoder.build_from(enc, sequence_len=N) for an nn.TransformerEncoder of one or two equal layers with biases gives a network that computes the same: every parameter of every layer and of the final norm has the value of its counterpart although weights are paired by the order of their sorted names; forward on a clip gives the torch encoder's tokens (one layer) or its last token (two layers), and stepping gives the last token for the window (two layers: before time 2(N-1)). The source is not changed and the layers do not share parameters with it; the final norm is the same object in both. Other sources raise IndexError (no layers) or AssertionError (more than two layers, N = 0, layers without biases, an activation that is a callable but neither a Python function nor a module). norm_first=True is silently ignored, and an activation module with a weight (PReLU) is shared: if its weights differ between the layers, both networks end up with the weight of the second.", "quantifier": "all sizes, weights, initial values, heaps (also with shared parameters in the source), norms, activations, windows, batches, streams and sequences of calls", "why_tests_cant": "Tests compare outputs of one randomly initialised encoder; a wrong pairing of equally shaped parameters or a shared parameter shows up only for other weights or after training.", "anchors": ["continual/transformer.py:577-638", "continual/transformer.py:426-502", "continual/transformer.py:542-575", "continual/container.py:135-142", "continual/closure.py:56-92"]}
{"id": "C74", "title": "A transformer for streams with recycling positional encoding", "statement": "For co.Sequential(Linear, RecyclingPositionalEncoding, TransformerEncoder, Linear) and any mixture of forward_step, forward_steps and forward: every call succeeds and gives the head of the encoder over the embedded tokens, each with the encoding of its position in the stream modulo num_embeds (encoders as in C71). Stepping at time n is the last token that forward gives for the last N tokens when its positional encoding stands at index (n+1-N) mod num_embeds; a fresh network gives something else for every later window. forward numbers its clip from the index that the stream has reached and moves that index by forward_update_index_steps (default 1), so calling it in between changes later steps. Clips with more frames than num_embeds raise AssertionError in forward and forward_steps.", "quantifier": "all sizes, weights, encodings, numbers of encodings, norms, activations, windows, batches, start indices, streams and sequences of calls (two layers: calls outside of step contexts)", "why_tests_cant": "The tests compare one window from a fresh network; the index wraps around and the windows shift only in longer streams and in mixtures of calls.", "anchors": ["continual/positional_encoding.py:91-196", "continual/container.py:633-677", "continual/transformer.py:505-575"]}
{"id": "C75", "title": "Peeking at networks with attention", "statement": "On any network built from Sequential, BroadcastReduce, Lambda, Linear, delays, attention and positional encodings: forward_step and forward_steps with update_state=False, if they return, leave the network in a state that no later call can tell from the one before (also with pad_end=True), and return what the updating call would return; such calls can be erased from any history without changing the other results. A TransformerEncoder (one or two layers) that has made a step can always be peeked at where a call would return; a fresh one raises UnboundLocalError. This needs that whatever a Lambda calls keeps no memory in the surrounding call_mode context: update_state is not passed on to it. pad_end=True is ignored by one-layer encoders; a single-output layer for an earlier query pairs wrong tokens under pad_end.", "quantifier": "all networks, weights, states, inputs of any shape, histories, contexts", "why_tests_cant": "The tests peek at single modules once; that the state after a peek is equivalent under all continuations, with counters shared by reference, is a statement about all later calls.", "anchors": ["continual/multihead_attention/mha_base.py:430-544", "continual/module.py:248-314", "continual/closure.py:94-140", "continual/delay.py:113-126", "continual/transformer.py:82-293", "continual/positional_encoding.py:150-177"]}
{"id": "C76", "title": "Operations per step of attention, and the reported flops", "statement": "Every forward_step of a SingleOutput- or RetroactiveMultiheadAttention takes the same number of multiplications, additions and exponentials, whatever calls were made before and also while it returns None; the number is linear in sequence_len. N single-output steps take exactly as many operations as one ordinary forward on N tokens; no step takes more than a forward (retroactive: from three tokens on; for two tokens more additions are possible). flops() reports exactly the exponentials and the additions of a single-output head, and at least the multiplications of a retroactive step of one sample. It does not cover the multiplications of the other calls, ignores the batch size, the module's call made in a call_mode context and, for the projections, the flags; it can report a negative number of additions for forward, and raises KeyError in the mode forward_steps.", "quantifier": "all sizes, weights, batches, query indices, streams, and histories of calls", "why_tests_cant": "The tests compare reported numbers with each other for one size (step at most a fraction of forward); whether the formulas count the operations that the code carries out, for all sizes and in all states, needs a count of the program itself.", "anchors": ["continual/multihead_attention/mha_base.py:595-610", "continual/multihead_attention/single_output_mha.py:46-117", "continual/multihead_attention/single_output_mha.py:402-463", "continual/multihead_attention/retroactive_mha.py:47-144", "continual/multihead_attention/retroactive_mha.py:376-434", "continual/ptflops.py:39-88", "continual/module.py:347"]}
{"id": "C77", "title": "Deep copies of networks", "statement": "copy.deepcopy(net) has buffers of its own with the same contents, and after it any interleaving of calls on the network and on its copy gives on each of them what the same calls give on the network alone, exceptions included. For a network of continual modules whose call mode was never assigned this extends to call modes and to changes of parameters. It does not hold further: once a call mode is stored, calling the copy outside of a call_mode context raises KeyError; and torch modules converted in place keep functions that close over the original, so that the copy computes with the original's parameters of those modules, training them in the copy has no effect, and forward_step and forward_steps of the copy raise outside of a context.", "quantifier": "all networks, buffer contents, interleavings of calls, assignments and parameter changes, inputs, and all functions computed by the modules", "why_tests_cant": "A copy is used over a long time next to the original; whether any sequence of operations on one shows up in the other depends on all attributes that could be shared, and a test runs one sequence on one network.", "anchors": ["continual/convert.py:38-115", "continual/module.py:36-120", "continual/module.py:329-415", "continual/container.py:325-347", "continual/conv.py:121-123", "continual/pooling.py:148-150", "continual/delay.py:62-63"]}
{"id": "C78", "title": "Masks, attention weights and the arguments of attention calls", "statement": "forward of an attention module with key_padding_mask and attn_mask gives every query its softmax attention over the keys that are not hidden; hidden keys might as well be missing. Feeding a stream to a SingleOutputMultiheadAttention step by step is forward on the whole stream with a banded mask (query i sees the sequence_len keys up to i + delay); with query_index = -1 it is also forward with the causal mask on every window, rounding included. The returned attention weights sum to one, are zero for hidden keys and, for one head, reproduce the output. The steps take no masks: they drop them silently, so results differ from forward for padding, and for the causal mask on a retroactive module except for the newest row; a key_padding_mask given by position is taken for update_state, so that the mask of an unpadded token keeps the module from moving on, and other masks raise.", "quantifier": "all weights, sizes, masks (boolean or additive, for all heads or for each), streams, query indices, module states and arguments", "why_tests_cant": "The tests call attention without masks. That a stream equals one masked forward is a statement about streams of every length and every window, and what extra arguments do depends on Python's binding of every combination of positional and keyword arguments.", "anchors": ["continual/multihead_attention/mha_base.py:302-372", "continual/multihead_attention/mha_base.py:430-544", "continual/multihead_attention/single_output_mha.py:268-300", "continual/multihead_attention/single_output_mha.py:46-117"]}
{"id": "C79", "title": "Changing the parameters in the middle of a stream", "statement": "Loading a state dict or taking an optimiser step in the middle of a stream changes the parameters only: the buffers stay, clean_state gives the new network, loading the old parameters again gives back the old module, forward uses the new parameters at once. Whatever parameters a network without recurrent modules has had before, from receptive_field - 1 frames after the last change on its step outputs are those of a network that had the new parameters from the beginning of the stream; one frame fewer is not enough, and in between the outputs are in general neither network's. A convolution that learns online adds up, for every output, frames times the weights that were there when each frame arrived and the bias of the present step. Recurrent modules keep what the old parameters left for ever.", "quantifier": "all networks built from convolutions, poolings, delays, pointwise modules, sequences, broadcast-reduce and residual blocks; all histories of parameters and clips; all streams and frame operations (no algebraic law is used except for the online-learning formula)", "why_tests_cant": "The mixture of old and new parameters depends on every buffer of the network and on how strides and delays shift what reaches it; the bound has to hold for every architecture, history and stream.", "anchors": ["continual/conv.py:121-155", "continual/conv.py:200-278", "continual/pooling.py:148-166", "continual/delay.py:62-63", "continual/skip.py:33", "continual/rnn.py:183-194", "continual/container.py:679-687"]}
{"id": "C80", "title": "Gradients through steps", "statement": "The derivative of every output with respect to parameters and inputs, as obtained by differentiating operation by operation through any history of forward_step, forward_steps, forward and clean_state, is the derivative of that output as a function of the parameters and inputs; so training through steps gives the gradients of training through forward, at the steps of the schedule. Detaching the buffers in the middle of a stream (or warming up without gradients) changes no value; the gradients of a network without recurrent modules are complete again from receptive_field - 1 frames later on, one frame fewer is not enough, and in between a convolution misses exactly the terms of the frames that came before. Gradients of a max pooling agree between steps and forward only where the maximum of a window has no ties.", "quantifier": "for all networks with differentiable components, all curves of parameters and inputs, all histories of calls, all notions of derivative that respect zero and sums (in particular real derivatives and integer polynomials)", "why_tests_cant": "Gradient checks sample a few points and directions; the claim is about all parameters, inputs, directions and histories, and the states after which gradients are complete again.", "anchors": ["continual/conv.py:200", "continual/pooling.py:180", "continual/delay.py:90", "continual/rnn.py:210", "continual/container.py:639", "continual/module.py:192"]}
{"id": "C81", "title": "Gradients through attention", "statement": "Differentiating operation by operation through a stream of forward_step calls of a single-output or retroactive attention module gives, at every step and in every entry of every output row, the derivative of that entry as a function of all projection weights, biases and tokens, also those of earlier tokens in the window. It is the gradient that differentiating forward on the window gives, although the retroactive module computes its sums incrementally by subtracting the oldest and adding the newest term.", "quantifier": "for all parameters and tokens moving along arbitrary differentiable curves of real numbers, all stream lengths, window lengths, numbers of heads and query indices", "why_tests_cant": "Gradient checks sample a few points and directions; incremental updates leave residual terms that only show after many steps.", "anchors": ["continual/multihead_attention/retroactive_mha.py:47", "continual/multihead_attention/single_output_mha.py:46", "continual/multihead_attention/mha_base.py:374"]}
{"id": "C82", "title": "Attention forgets its old memory", "statement": "An attention module that holds any memory of the right shape - after set_state, after its parameters were replaced in the middle of a stream, or after its memory was detached - returns a None or an output according to its start-up counter alone, and from the N-th token on returns exactly what forward computes, with the current parameters, on the last N tokens. In particular new parameters have taken full effect, and gradients are complete again, N tokens later. For the retroactive module this needs exact arithmetic; in floating point two modules with any two memories, infinities and NaN included, return equal outputs from token 2N-1 on. N-1 tokens are not enough.", "quantifier": "for all contents of the memory, parameters before and after, tokens, stream lengths, window lengths, numbers of heads and query indices", "why_tests_cant": "How long a wrong or stale entry survives in five interacting buffers depends on the window length and on the contents; a test shows it for one memory and one stream.", "anchors": ["continual/multihead_attention/single_output_mha.py:246", "continual/multihead_attention/retroactive_mha.py:268", "continual/multihead_attention/mha_base.py:374"]}
{"id": "C83", "title": "Dropout in attention modules", "statement": "In evaluation mode the dropout probability of an attention module has no effect on forward or forward_step, and nothing is drawn from the generator. In training mode a single-output step returns what forward returns, with the same draws, for the window; each step makes new draws, and no draw is ever stored, so the memory and the start-up are those of evaluation mode. The mean over all draws of every entry of an output is that entry in evaluation mode. A retroactive step ignores the dropout probability in training mode, where forward applies it.", "quantifier": "for all sequences of draws, dropout probabilities, parameters, tokens, stream lengths, window lengths, numbers of heads and query indices; the mean in exact arithmetic", "why_tests_cant": "Outputs are random in training mode, and steps and forward consume the generator differently; tests set dropout to 0 or use evaluation mode.", "anchors": ["continual/multihead_attention/single_output_mha.py:103", "continual/multihead_attention/retroactive_mha.py:74", "continual/multihead_attention/mha_base.py:211"]}
{"id": "C84", "title": "Networks with dropout in training mode", "statement": "A Sequential of continual networks and nn.Dropout modules in training mode returns from forward_step and forward_steps, in any mixture of calls and with the reported delay and stride, what forward returns for the clip, if the n-th frame that reaches a dropout module has the same draws in both: each frame is dropped once and stays so in all windows that hold it. A dropout module draws for the frames that reach it and for no others. In evaluation mode the container acts as if the dropout modules were not there. With modules that drop whole channels, steps return what forward can return with no draws.", "quantifier": "for all draws, chains of supported networks with dropout modules at any places, parameters, streams and clip lengths", "why_tests_cant": "Outputs are random in training mode, and steps and forward use the generator in different orders, so that seeds do not make them comparable; tests convert networks in evaluation mode.", "anchors": ["continual/container.py:639", "continual/container.py:633", "continual/container.py:668", "continual/convert.py:38", "continual/convert.py:156"]}
{"id": "C85", "title": "Converted normalisation modules", "statement": "nn.BatchNorm modules that co.continual converts return from forward_step in evaluation mode what forward returns for the clip, frame by frame, and keep their running statistics. In training mode each step normalises by the statistics of its frame, so that it does not depend on the level of the frame and differs from forward, and the running statistics become the exponential average of those of the frames; with momentum=None the running mean is that of forward. update_state=False does not protect the running statistics. Frames with one value per channel raise ValueError in forward_step where forward of the clip works. Without running statistics, and for nn.GroupNorm, steps and forward differ in evaluation mode too; group normalisation agrees on clips whose frames have equal mean and variance.", "quantifier": "for all clips, frame sizes, numbers of steps, momenta, weights, running statistics and values of update_state, in exact arithmetic with any function for 1/sqrt(v + eps)", "why_tests_cant": "Tests convert a few modules in evaluation mode with fixed inputs; what holds for all clips and after any number of training steps needs an argument over all of them.", "anchors": ["continual/convert.py:38", "continual/convert.py:61", "continual/convert.py:149", "continual/convert.py:154"]}
{"id": "C86", "title": "Converted modules that work along dimensions", "statement": "nn.Softmax, Softmin, LogSoftmax and Softmax2d, which co.continual converts as they are, compute each entry from the entries whose index differs in their dimension only (softmax entries add up to one there), and forward_step returns the frames of forward if that dimension is not time; the numbers 2 and 2 - rank mean time, among them dim=-1 on clips without space. Along time a step sees one entry at a time, so nn.Softmax returns ones for every frame. nn.LayerNorm over the dimensions behind time agrees frame by frame; over time as well it raises RuntimeError on every frame, where forward of clips of T <> 1 frames works.", "quantifier": "for all batch sizes, channels, clip lengths, spatial shapes, dimension numbers, normalised shapes, inputs, and any function computed along the dimensions (softmax and normalisation with any exp, division and weights)", "why_tests_cant": "Tests convert activations without a dimension; which of the dimension numbers work depends on the rank, and agreement for every shape and every function along the dimension needs an argument over all index positions.", "anchors": ["continual/convert.py:38", "continual/convert.py:61", "continual/convert.py:144", "continual/convert.py:152"]}
{"id": "C87", "title": "Converting an nn.MultiheadAttention", "statement": "build_from of the continual attention modules, without keyword arguments, returns a module with the arguments and parameter values of the nn.MultiheadAttention, for one projection matrix or separate ones, with or without biases and bias_k/bias_v. Keyword arguments that leave the sizes give a module with the parameters of the original, with zero biases where it has none; leaving out a bias that it has raises AttributeError. Another kdim raises, AttributeError for one projection matrix and RuntimeError for separate ones, except that a key projection of one column is repeated without notice.", "quantifier": "for all embedding sizes, numbers of heads, kdim, vdim, flags, parameter values, keyword arguments of these kinds and initial values of the new module", "why_tests_cant": "Tests convert modules of a few sizes with default flags and compare outputs; that every parameter is copied for every combination of flags and sizes, and which keyword arguments fail, is a statement about all of them.", "anchors": ["continual/multihead_attention/mha_base.py:251", "continual/multihead_attention/mha_base.py:550", "continual/multihead_attention/mha_base.py:571"]}
{"id": "C88", "title": "Converted gated linear units", "statement": "nn.GLU, which co.continual converts as it is, multiplies each entry of the first half of its dimension by the gate of the entry half the size further on. Along a dimension other than time, forward_step returns the frames of forward, or both raise RuntimeError for odd sizes. Along time, the default (dim=-1) on clips without space, forward works on clips of even length and every forward_step raises RuntimeError.", "quantifier": "for all batch sizes, channels, clip lengths, spatial shapes, dimension numbers, inputs and gate functions", "why_tests_cant": "Tests do not convert nn.GLU; that the steps agree for every shape and dimension number but those that mean time needs an argument over all index positions.", "anchors": ["continual/convert.py:38", "continual/convert.py:61", "continual/convert.py:134"]}
