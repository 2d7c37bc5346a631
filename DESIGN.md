# Formal model of continual-inference in Rocq

The project is a Python library (PyTorch modules) for stream processing.  The
model is a set of total Gallina functions that mirror the Python methods branch
by branch; every definition cites the lines it models.

## Conventions of the model

* **Frames.**  A frame is one time step of a tensor, `x[:, :, t]`.  Frames live
  in an abstract carrier with an addition, a zero frame
  (`torch.zeros_like`) and a "minus infinity" frame (`neginf_like`).  Tensor
  shapes, devices and dtypes are not modelled (derivatives: C80).  A clip is a list of frames.
* **Rounding.**  Nothing is assumed of the operations on frames and numbers
  (classes `Frames`, `Num`, `Scal`, `Pool`): they may round.  The laws of exact
  arithmetic are in separate classes (`FrameLaws`, `NumLaws`, `ScalLaws`, `PoolLaws`).
  A theorem that does not mention such a class holds for floating point numbers too,
  unless one of its hypotheses asks for a law (`conv_ok`: a tap maps the zero frame to
  the zero frame; `pool_ok`: the aggregation does not depend on the order; both are part
  of `net`).  What the operations do inside (order of a sum within one torch call) is
  taken to be a function of the arguments of that call.  In the counterexamples of C68 a
  sum along a dimension goes from the last to the first entry; torch may use another
  order, for which other numbers serve.  softmax is the textbook formula (torch subtracts
  the maximum first).
* **Convolutions** act on frames through tap functions `W_i` (the spatial/channel
  part of tap i) with `W_i 0 = 0`; the temporal cross-correlation of
  `F.convNd` is modelled once and used by both `forward` and the step code.
* **Indices** are `Z` with Python's `%`.
* **Exceptions** are values (`Err ...`).  `None` is a value.
* **In-place buffers**: a separate memory model (pointers to buffers) is used for
  the aliasing properties; the value-semantics model is shown to be refined by it.

## Plan per property

| id | what is modelled / how it is proved |
|----|-------------------------------------|
| C01, C02 | conv step code with ring buffer; invariant: slot (index+m) mod (k-1) holds the product of frame n-(k-1)+m; induction over the stream |
| C03, C04 | pooling step code; invariant: buffer is a rotation of the last k pooled frames |
| C05-C07 | Delay, Skip: ring-buffer invariant |
| C08 | tree-shaped interpreter for networks; induction over the network for the commutation of "layer by layer" with "frame by frame" |
| C09-C12, C25 | semantic triple (delay, stride, length offset) per network, induction over networks |
| C13, C16, C43, C44 | memory model, separation invariant, refinement to the value model |
| C14, C15 | histories as lists of calls over the interpreter |
| C17, C18 | generic `_forward_steps_impl`, both general lemmas and refuting witnesses |
| C19-C24, C39 | dynamic-value interpreter for containers |
| C26 | frame-wise maps |
| C27 | recurrent cells as functions; stacks of layers |
| C28 | index arithmetic mod N |
| C29-C31 | attention over an abstract field with an abstract exponential |
| C32, C33 | store model of attributes, context object as a two-field record |
| C34 | association lists, dotted names as lists of parts |
| C35 | rose trees |
| C36-C38, C40 | refuted full statements with witnesses, plus what does hold |
| C41 | set of seen messages |
| C42 | conversion as a function on module trees |
| C45 | histories of calls, simulation between the two nestings |
| C46 | two-dimensional clips: channels and time |
| C47, C48 | the attention state as a record with a start-up counter that is written in place |
| C49-C51 | encoder layers as compositions of attention, delays and a pointwise map |
| C52 | bounded memory of every network (C11), applied to a network restarted in mid-stream |
| C53, C54 | one relational theorem about the network interpreter, instantiated |
| C55 | torch's n-dimensional convolution and conv.py on flat row-major data; the index sums are split into taps, then C01 and C02 apply; every entry of forward as a sum over pairs of kernel and input positions that meet |
| C58, C59 | ordered dictionaries of named children, decimal names; append and slices as dictionary operations |
| C56 | torch's n-dimensional average and max pooling with ceil_mode, count_include_pad and divisor_override; a window splits into frames, then C03 and C04 apply; every entry of forward from the positions in its window; three refutations |
| C60 | torch's adaptive pooling windows; the clip window splits into frames, the step code is that of C56 with another spatial pooling |
| C61 | tensors with shapes; a batch of B sequences with H heads is the attention of C29-C31 with B*H heads; index arithmetic of the views, entries compared with the textbook formula |
| C62 | cells as ATen computes them on (B, C) data, compared row by row with the documented recurrences; induction over frames, layers and calls; `copy_` with broadcasting for build_from; leaves of Net.v through Rnn.v |
| C63 | a second interpreter that returns the network also when a call raises; agreement with Net.v; containers characterised by the position of the failing child |
| C64 | an invariant on the buffers of each leaf, preserved by every call of the interpreter of C63 (also by calls that raise); for attention, lengths of the memories preserved by every step |
| C65 | one contract per module (shape, frame by frame, clip, padded clip, same state), proved for each tensor leaf from C55, C56 and C62, and preserved by Sequential (two schedules composed) and BroadcastReduce (reduction of clips is reduction of frames); induction over the network |
| C66 | frames carry their batch size, torch's broadcasting when adding and when writing into a buffer is modelled; simulation by the stream of repeated frames, then C55 and C56 |
| C67 | a network is a tree of containers over references into a list of objects; frame-rule argument: a call changes only objects of its subtree that are not stateless, so copies of the other occurrences stay valid |
| C68 | run the network on pairs of frames and on marks: the relational theorem of C53 gives that unmarked results agree; the marks form a lawful network, so C11 bounds them; without convolutions the addition is never used, so the network is run on frames with a made-up lawful addition; attention: the parts of two memories that j common tokens have made equal |
| C69 | swapaxes, moveaxis, reshape and F.linear on shaped tensors; index lists compared entry by entry |
| C70 | calls in a monad that records hook calls; induction over the network with the list of modules that a loop visits; hooks that act on frames are put into the network as pointwise modules, then C10 |
| C71 | an interpreter for the modules inside of transformer.py on shaped tensors with the active call mode; one contract per module (what a frame, a clip and a forward call give as a function of the stream so far), composed along the layer; induction over the calls |
| C72 | the same interpreter with the context set; the second layer's wrapper and its attention are followed through the wrong mode |
| C73 | parameters are cells of a heap, modules are trees of named parameters, names are strings; the pairing by sorted names is computed once with symbolic cells, the copying is shown not to disturb itself, then C71 |
| C74 | the network is cut into embedding and encoding (never None, one output per input), encoder and head; the calls that reach the encoder hold the encoded stream, to which C71 applies |
| C75 | equivalence of states by recursion on the network (attention counters up to the cell they live in); every method respects it; a peek leaves an equivalent state by induction on the network, Lambdas by a syntactic condition on what they call |
| C76 | the attention programs again in a writer monad that counts operations on numbers; equality with the uncounted programs and the closed formulas by computation of both components at once; states after any history have the sizes of the default state (C64) |
| C77 | buffers: the heap of C43 doubled, the moved network is separate from the original and each run is framed; modules: a memory of objects with mode tensors compared by identity and stored functions that name a module; simulation of both networks against one alone |
| C78 | masked rows as lists of (mask entry, key, value), sums filtered by what is shown; the band selects exactly the window of C29; Python's binding of arguments as association lists |
| C79 | what a network remembers (lag) by recursion on the network; two states with equal indices become equal up to the pooling slot that is written next; the lag of a network is at most receptive_field - 1 |
| C80 | dual numbers as frames; curves of parameters as a third kind of frames, related to values by evaluation and to duals by tangency (C53); detach through C79 |
| C81 | numbers with tangents obey the laws of numbers, so C29 and C30 apply to them; the attention formula is differentiable because a sum of exponentials is positive |
| C82 | an invariant on the last rows of each buffer in terms of the new tokens only; for the retroactive module each sum equals the old sum minus the old terms plus the new ones |
| C83 | a step that returns its weights and values instead of their product satisfies the invariant of C29; draws are then applied to the formula. Means are linear |
| C84 | every network is scheduled (C10); two schedules compose to that of the product of the strides; dropout is a schedule with delay 0 and stride 1 |
| C85 | induction over the frames; the running statistics in closed form; means of concatenated frames |
| C86 | row-major tables with a dimension of size 1 inserted; induction over the picked dimensions |
| C87 | case distinction over the flags; copies of equal shapes are the identity |
| C88 | as for C86, with the shape of the result |

Properties that turn out to be false of the code are recorded as `..._refuted`
theorems with explicit witnesses.

## Layout of `rocq/theories`

For every part of the library there is a model file (definitions only, each citing
the lines it models), a specification file that does not use the model's helpers, one
or more proof files, and a file `P*.v` that holds only the property theorems, each
closed by one lemma, with `Print Assumptions` and an example beside it.

| part | model | specification | theorems |
|------|-------|---------------|----------|
| results, lists, buffers | Base | | |
| frames, convolution and pooling along time | Frames | | |
| generic streaming loop of CoModule | CoMod | Spec | |
| Delay, Skip, Conv, Pool | Leaf | LeafSpec (proofs in LeafProof, LeafBig) | PLeaf (C01-C07, C36-C38) |
| RNN, GRU, LSTM | Rnn, TRnn | PointSpec, TRnnSpec | PPoint (C27), PTRnn (C62) |
| containers | Net | NetSpec, NetDef, Calls | PNet1, PNet2 (C08-C12, C14, C15, C17-C25, C39, C45), PTime (C52) |
| networks after an exception | NetExn | NetExnSpec | PExn (C63) |
| how much is stored | | MemSpec, AttnMemSpec | PMem (C64) |
| building containers | Build | BuildSpec | PBuild (C58, C59) |
| whole tensors | Tensor, TConv, TPool, AdPool | TConvSpec, TPoolSpec, AdPoolSpec | PTensor (C55), PTPool (C56), PAdPool (C60) |
| networks of tensor modules | TNet | TNetSpec | PTNet (C65) |
| batch size changing in a stream | TBatch | TBatchSpec | PTBatch (C66) |
| one object occurring several times | Share | ShareSpec | PShare (C67) |
| floating point | Float32 (binary32 instances for examples) | FloatSpec | PFloat (C68) |
| relations between networks | | NetRel, Batch | PBatch (C53, C54) |
| Lambda, Linear, Reshape, forward_stepping, positional encoding | Point, TPoint | PointSpec, TPointSpec | PPoint (C26, C28, C46), PTPoint (C69) |
| in-place buffers | Heap | HeapSpec | PHeap (C13, C16, C43, C44) |
| attention | Attn, TAttn | AttnSpec, TAttnSpec | PAttn (C29-C31, C47, C48), PTAttn (C61) |
| transformer encoders | Trans, TEnc (on tensors) | TransSpec, TEncSpec | PTrans (C40, C49-C51), PTEnc (C71, C72) |
| conversion of transformer encoders | TBuild | TBuildSpec | PTBuild (C73) |
| transformers with positional encoding | TEnc (MPos) | TPosSpec | PTPos (C74) |
| update_state=False on tensor networks | TEnc | TPeekSpec | PTPeek (C75) |
| Operations of attention, flops reports | Count | CountSpec | PCount (C76) |
| Deep copies of networks | Copy | CopySpec | PCopy (C77) |
| Masks, attention weights, arguments of attention calls | Mask | MaskSpec | PMask (C78) |
| Parameters that change during a stream | Reload | ReloadSpec | PReload (C79) |
| Gradients | Grad | GradSpec | PGrad, PGradReal (C80) |
| Gradients of attention | GradAttn | GradAttnSpec | PGradAttn (C81) |
| Attention with any memory | Attn, Forget | Forget | PForget (C82) |
| Dropout of attention weights | Dropout | Dropout (mean, draws, entry) | PDropout (C83) |
| Networks with dropout | DropNet | DropNet (reached, channel_fwd) | PDropNet (C84) |
| Normalisation modules | BatchNorm | BatchNorm (mean, var, exponential) | PBatchNorm (C85) |
| Modules along dimensions | Axis | Axis (along), Tensor (slice2) | PAxis (C86) |
| Attention module conversion | MhaBuild | MhaBuild (made) | PMhaBuild (C87) |
| Gated linear units | Glu, Axis (dimension) | Glu (sizes), Tensor (slice2) | PGlu (C88) |
| call modes | CallMode | CallSpec | PCall (C32, C33) |
| temporary_parameter | TempParam | | PCall (C33) |
| flattened state dicts | StateDict | StateDictSpec | PState (C34) |
| ONNX state plumbing | Onnx, OnnxNet | OnnxSpec, OnnxNetSpec | POnnx (C35), POnnxNet (C57) |
| hooks | Hooks | HooksSpec | PHooks (C70) |
| conversion | Convert | ConvertSpec | PConvert (C42) |
| logging | Logging | LoggingSpec | PLog (C41) |

## Trusted base

* The kernel of Coq 8.16.1 and its standard library.
* **Axioms.**  `Print Assumptions` stands under every property theorem and answers
  "Closed under the global context" for each of them, except those of `PGradReal.v`
  (C80 for real derivatives: C80_real_step_gradients, C80_real_forward_gradients,
  C80_real_derivative_unique, C80_conv_rule, C80_function_rule, C80_linear_rule,
  C80_average_rule, C80_reduction_rules, C80_cell_rule), and of those in `PGradAttn.v`
  C81_retroactive_gradients, C81_single_output_gradients, C81_parameters_rule and
  C81_derivative_unique.  These rest on axioms of the standard library, on which its
  real numbers are built: `ClassicalDedekindReals.sig_forall_dec` and
  `FunctionalExtensionality.functional_extensionality_dep`, and the first three of C81
  also on `ClassicalDedekindReals.sig_not_dec` (for the exponential function).
* The statements: definitions in the model and specification files, and the reading
  of the Python code that they express.  The model was written by hand from the text
  of /repo; nothing was extracted or executed.
* What the model takes from torch (behaviour of F.convNd, pooling, F.pad, torch.stack,
  broadcasting, nn.RNN, load_state_dict, logging) is written down in the model as
  functions with the semantics of torch's documentation.

## What is modelled

`module.py` (CoModule: forward_step, forward_steps, `_forward_steps_impl`, call modes,
call_mode context, warm_up, receptive_field/delay/stride/padding), `conv.py`,
`pooling.py` (temporal part; dilation; whole tensors in C56 and C60; the Adaptive classes without None in output_size),
`delay.py`, `skip.py`, `container.py` (Broadcast, Parallel, ParallelDispatch, Reduce,
Sequential, BroadcastReduce, Residual, Conditional), `closure.py`, `linear.py`,
`shape.py`, `rnn.py`, `positional_encoding.py`, `multihead_attention/` (single output
and retroactive; masks and returned weights: C78, dropout: C83), `transformer.py`,
`convert.py` (continual, forward_stepping), `onnx.py` (OnnxWrapper and the names of
states), `utils.py` (temporary_parameter, flatten, flat_state_dict), `logging.py`.

## What is not modelled

* IEEE floating point beyond what C68 says (see "Rounding" above; binary32 occurs in its
  counterexamples only, with the operations of Coq's SpecFloat and one NaN), dtypes and devices (except that C42
  tells default from other types), the graph that autograd records (derivatives themselves: C80), tensor shapes beyond time (except in C46 and, for convolutions, pooling, attention and recurrent modules, in
  C55, C56, C60 to C62, C65, C69, C71 and C72).
* Dropout, other than of attention weights (C83) and between the modules of a Sequential (C84; elsewhere a probability of 0 is assumed; masks and attention weights: C78), packed sequences,
  backward and global hooks (forward hooks: C70), torch.jit tracing, torch.onnx itself; of `ptflops.py`, the hooks that ptflops provides itself (the hook for attention: C76).
* Module objects that occur twice in a network, in the network models Net and Heap.
  They are covered by Share (C67), by CallMode and, for plain modules, by Convert.
* A buffer that was partly written by a leaf module whose `_forward_step` then raises
  (frames of the wrong shape).  NetExn models what the modules of a network have stored when
  an exception leaves it, for the arguments that Net.v refuses; CallMode and TempParam model
  the call modes that an exception leaves behind.
* In CallMode, tensors are left out: a Sequential does not stop at a None.
* Onnx (C35) uses arbitrary leaves with any number of state tensors; OnnxNet (C57)
  ties them to the leaves of Net. Attention and positional encodings are not tied.
* Python's None as the input of a leaf: in Net.v Skip and Delay(0) raise TypeError like
  every other leaf, where the code advances the counter of a Skip and returns None from
  both; the class of the exception of other leaves may be AttributeError.
* `conv.cpp`: its loading is commented out (conv.py 24-38, setup.py 53).
* The transformer constructors' argument handling; keyword arguments of build_from (positional
  arguments and defaults of TransformerEncoder.build_from: C73);
  recurrent inputs without a batch dimension.
* Threads and processes: the library has none (logging: one rank per process).

## Mutation testing

`seeded/LOG.jsonl` has one line per wrong program: an edit of one definition of the model in a
scratch copy, after which every lemma that no longer checks is replaced by a false axiom until the rest
builds.  `theorems_failed` are the theorems that then depend on this axiom.  So a theorem
"fails" when the proof script does not check any more, which does not always mean that its statement is
false.  `outcome` tells apart:

- `killed`: at least one theorem failed;
- `survived`: all theorems still hold; `theorems_tightened` names what was added or strengthened
  because of it.  Where nothing is named the edit has no effect that a user can observe in the
  supported cases: V1, V8 and V27 (the names that TransformerEncoder.build_from pairs are unique, as
  many on both sides and of equal shapes), E9, N5 of BatchNorm.v (the branch is only reached in
  training mode), H16 (a fill of minus infinity is outside the gradient theorems);
- `only concrete Examples failed`: no theorem noticed.  O9, W1 and D1 are noticed by theorems that were
  added later; V4 and V6 change names that only serve to order parameters, and the order stays the same;
  Y25 (the shape of an expanded copy) is noticed by the Example of C87 alone;
- `invalid`: the edit does not type-check, and no theorem was tested.

## Where the code disagrees with what a user would expect

Each item is a theorem unless marked "(read only)".

1. Max pooling with the default zero fill is not forward (C04_max_zero_fill_refuted).
2. Delay with auto_shrink="centered" emits too many frames (C07_centered_refuted);
   Residual with "centered" raises in forward_steps (C21_centered_forward_steps_refuted);
   Residual with True or "lagging" and pad_end=True raises or broadcasts
   (C21_pad_end_shrink_refuted).
3. Skip does not report its start-up; Delay and Skip do not follow the length formula
   (C12_delay_skip_reports_refuted).
4. A final chunk too short for a stage drops end padding (C09_pad_end_short_chunk_refuted).
5. End padding is stored downstream in a Sequential (C17_sequential_refuted).
6. pad_end=True with update_state=False in mid-stream uses the old state
   (C18_midstream_pad_end_peek_refuted).
7. Recurrent modules report receptive field 1 (C11_rnn_receptive_field_refuted).
8. auto_delay with stride > 1: the branches drift apart, nothing is ever returned
   (C20_strided_auto_delay_refuted).
9. Conditional: clean_state does nothing (C15_conditional_clean_refuted), forward_steps
   ignores pad_end and update_state (C23_conditional_pad_end_refuted,
   C23_conditional_update_state_refuted, C14_conditional_peek_refuted), without an
   else-branch the input is not delayed (C23_no_else_undelayed), forward runs the branch
   in the branch's own call mode (C32_conditional_forward_refuted), its ONNX state
   counts do not match (C35_conditional_refuted).
10. Convolutions with kernel size 1 ignore their stride when stepped
    (C36_conv_k1_refuted, C24_kernel_one_stride_refuted).
11. Padding of at least the kernel size loses the first outputs (C37_conv_large_padding_loses
    says which; C37_conv_large_padding_refuted is a witness).
12. Dilated pooling: wrong delay and wrong values (C38_dilated_pool_delay_refuted,
    C38_dilated_pool_values_refuted).
13. Stacked Parallel stages raise during start-up (C39_stacked_parallel_refuted).
14. Snapshots alias the live buffer (C16_*_snapshot_refuted, C44_shared_state_refuted).
15. RecyclingPositionalEncoding.forward advances the index (C28_forward_pure_refuted),
    and its explicit state is written in place (C28_explicit_state_pure_refuted).
16. co.Linear with the default channel_dim mixes time and channels
    (C46_linear_default_refuted).
17. Attention: query_index below -N (C29_query_index_below_window_refuted);
    retroactive attention of length 1 raises (C30_length_one_raises); peeking without a
    state (C31_peek_without_state_refuted); snapshots and explicit states during
    start-up (C47_snapshot_during_start_up_refuted, C48_explicit_state_reuse_refuted).
18. RetroactiveUnity's window is stale from step 2*delay on (C40_never_right_later),
    so retroactive encoder layers are wrong there (C49_later_steps_refuted,
    C51_two_layers_later_refuted); delay 0 raises (C40_delay_zero_raises).
19. Single-output encoder layers do not delay the residual
    (C50_residual_not_delayed_refuted); encoders with three or more layers raise, and
    zero layers build two (C51_three_layers_raise, C51_zero_layers_is_two).
20. Nested call_mode contexts, bad modes that stick, int modes, copied modes
    (C32_nested_contexts, C32_bad_mode_sticks, C32_int_raises,
    C32_foreign_tensor_raises); BroadcastReduce over a converted torch module raises
    (C32_broadcast_reduce_stepping_raises).
21. temporary_parameter is not exception safe, and restoring a container's mode
    overwrites those of its grandchildren (C33_exception_not_restored,
    C33_failing_child, C33_grandchildren_refuted).
22. Loading an unflattened dict in a flat_state_dict context raises or is ignored;
    nested contexts (C34_unflattened_dict_raises, C34_unflattened_dict_ignored,
    C34_nested_context).
23. A bare attention module cannot be exported: its state is passed as the key
    (C35_bare_attention_raises).
24. log once drops messages on hash collisions; unhashable arguments raise
    (C41_collision_refuted, C41_unhashable_raises).
25. Converting twice, or a shared activation, breaks stepping; conversion loses dtype
    and return_indices; a failed conversion leaves modules changed (C42_*_refuted,
    C42_stepping, C42_failure_keeps_changes).
26. (read only) Sequential built by conversion loses weight sharing; co.onnx.export with the default
    input_names raises; activation="gelu" gives relu in the
    encoder layer factory (transformer.py:472-475); the flops formula of attention; adaptive pools and TransformerEncoder cannot be converted by continual().
27. padding_mode="replicate" with the default temporal_fill (zeros; documented as
    'replicate') does not give forward (C55_default_fill_refuted).
28. Average pooling with divisor_override, average pooling with count_include_pad=False
    and temporal padding, and pooling with ceil_mode=True do not step to forward
    (C56_divisor_override_refuted, C56_count_include_pad_refuted,
    C56_ceil_mode_refuted).
29. An exported network cannot be started from missing states before its first output
    (C57_before_first_output_refuted).
30. Sequential.append replaces a module when its name is taken, as in slices, and infers
    no number of streams (C58_append, C58_append_to_slice, C58_append_broadcast_refuted);
    BroadcastReduce.append does not align and leaves stale delay and receptive field;
    its slices forget the reduction; Parallel.append after inference raises
    (C59_append_refuted, C59_whole_slice_refuted, C59_append_parallel_refuted).
31. forward of an adaptive pooling module pools the whole clip in time: it differs from
    forward_steps for every clip with a second window and under temporal padding
    (C60_longer_clip_refuted, C60_padding_refuted).
32. forward_steps of the single-output attention without batch_first removes dimension 2,
    which is the batch: for a batch larger than one the output has four dimensions
    (C61_single_clip_time_first_refuted).  embed_dim_second without batch_first reads the
    first dimension as time, not as the batch that the comments name.
33. build_from of a bidirectional recurrent module does not raise as such.  It pairs
    `_flat_weights` by position, so with two layers of equal input and output size the second
    layer silently gets the weights of the reverse direction of the first
    (C62_build_bidirectional_two_layers, C62_build_bidirectional_refuted).  With one layer the
    forward direction is kept; three or more layers raise an unspecific RuntimeError.
34. A call that raises is not undone: the modules called before the exception have taken the
    input (C63_atomic_refuted).  One missing frame in one of two strided streams leaves
    Sequential(Parallel, Reduce) without any result until clean_state
    (C63_streams_lose_step).  clean_state repairs every network without Conditional
    (C63_clean_after_failures).
35. A frame of batch size 1 in a stream of a larger batch is not refused by convolution,
    pooling and Delay: it is silently taken for the same frame of every sample
    (C66_conv_frames, C66_pool_frames, C66_delay_frames).  Any other batch size raises, also
    a larger batch after a stream of batch size 1 (C66_conv_raises); a recurrent module
    raises in all cases (C62_batch_change_raises).
36. One stateful object used several times in a network is accepted without a warning and
    gives results that differ from forward and from the exported network
    (C67_shared_state_refuted, C67_branches_same_object, C67_delay_twice_refuted).
37. In floating point an average pooling step sums its ring buffer in an order that rotates
    with the position in the stream, so equal windows can give different results; a
    convolution with an infinite weight steps to NaN where forward gives infinity; a NaN
    token stays in the outputs of retroactive attention for 2N - 1 steps instead of N, and
    a large value that has left the window can leave a result of 1/2 where forward gives 1
    (C68_average_pool_refuted, C68_infinite_weight_refuted, C68_retroactive_window_refuted,
    C68_retroactive_exact_refuted).
38. co.Reshape with one target dimension steps but raises IndexError in forward and
    forward_steps (C26_reshape_one_dim, C69_reshape_one_dim).  co.Linear with channel_dim 2 or
    more, or pointing at the time, channel or batch dimension from the end, treats a clip
    differently from its frames (C69_linear_framewise).
39. Hooks of a torch module converted by forward_stepping run twice in the stepping modes;
    hooks of recurrent children run in stepping but not in forward; hooks of a branch of a
    Conditional run in forward but not in stepping (C70_schedule_refuted,
    C70_converted_twice, C70_forward_runs_all).  While a module has no output yet its hooks
    are called with None (C70_hook_meets_none).
40. `with co.call_mode("forward_step"): encoder(x)` with a two-layer TransformerEncoder raises
    AssertionError as soon as there is an output, and `"forward_steps"` raises RuntimeError for
    every clip longer than a window; the methods by name work (C72_step_context_refuted,
    C72_steps_context).  From time 2(N - 1) on the two-layer encoder does not give what
    forward gives for the window, because of the stale residuals of item 18
    (C40, C71_two_layers_late_refuted).
41. Read only, not in a theorem: clean_state of an encoder does not reach a module inside of a
    Lambda; `activation="gelu"` of a transformer layer gives relu.
42. TransformerEncoder.build_from ignores norm_first=True of the source and gives another
    function (C73_norm_first_refuted).  It passes the activation module of the first layer and
    the final norm on without copying: training one of the networks changes the other, and
    for an activation with a weight (nn.PReLU) the conversion itself overwrites the weight of
    the source's first layer with that of the second (C73_build_from, C73_activation_refuted).
    A built-in function as activation (F.gelu in recent torch) raises AssertionError
    (C73_raises).  co.continual(encoder) always raises TypeError, because build_from needs
    sequence_len (C42, `TNeedsArg`).
43. A transformer with RecyclingPositionalEncoding gives other positions to a window than
    forward of a fresh network, in every window but the first (C74_fresh_forward_refuted);
    forward in mid-stream moves the positions of the stream (C74_forward_moves_refuted); and
    forward_steps refuses clips longer than num_embeds (C74_long_clip_raises).
44. update_state=False does not reach what a Lambda, an nn.Sequential or a NaiveResidual calls:
    inside of a call_mode context such a peek moves the stream (C75_context_refuted).  With
    pad_end=True a peek at a delay pads from the state before the clip (C75_peek_pad_end_refuted,
    cf. C18).  forward_steps(pad_end=True) of attention modules and one-layer encoders ignores
    pad_end silently (C75_pad_end_ignored), and a single-output layer with another query than
    the last adds the residual of another token (C75_pad_end_refuted).  The first call of an
    encoder cannot be a peek (C75_fresh_peek_raises, cf. C31).
45. The operations that attention modules report (`flops`, used by ptflops) differ from those
    they carry out: the multiplications of a single-output step, of forward and of
    single_output_forward (whose keys and values are projected for all tokens) can be more
    than reported, for every batch of two or more too (C76_reports_cover_refuted); the
    additions of forward lack a factor and can be negative (C76_negative_refuted);
    include_muls=False does not remove the projections (C76_flags_refuted); the mode
    forward_steps raises KeyError (C76_forward_steps_raises); inside of a call_mode context
    the report is that of the module's own mode (C76_context_refuted).  For windows of two
    tokens a retroactive step can take more additions than forward
    (C76_retro_two_tokens_adds_refuted).
46. A deep copy of a network is not always usable or independent.  After a call mode was
    assigned (also after any run of a Sequential, for its children), calling the copy
    outside of a context raises KeyError, since modes are looked up by the identity of
    tensors (C77_call_raises, C77_call_refuted).  Torch modules converted in place
    (nn.BatchNorm2d, nn.ReLU, ...) hold functions that close over the original: the copy
    computes with the original's parameters (C77_copy_forward, C77_copy_in_context,
    C77_training_has_no_effect, C77_converted_refuted), and its forward_step and
    forward_steps raise (C77_copy_steps, C77_copy_never_steps), a TypeError caused by
    `orig_forward(*args, *kwargs)` (convert.py:109).
47. forward_step and forward_steps of attention modules drop key_padding_mask, attn_mask and
    need_weights without a warning (C78_steps_drop_arguments), so that the same call gives
    something else in the modes forward and forward_step (C78_padding_refuted,
    C78_retro_causal_refuted).  By position a key_padding_mask is taken for update_state
    (C78_padding_as_update_state, C78_unpadded_token_is_forgotten).
48. After load_state_dict in the middle of a stream the outputs are a mixture of old and new
    parameters for receptive_field - 1 frames, without a warning (C79_transition_is_neither), and
    for ever with recurrent modules (C79_rnn_forgets_refuted).
49. The gradient of a max pooling with ties goes to the first maximum in the order of the ring
    buffer in forward_step, and to the first in the order of time in forward: training through
    steps and through forward differ there (C80_max_pool_ties_refuted).
50. In training mode SingleOutputMultiheadAttention.forward_step logs that dropout "will be skipped"
    (single_output_mha.py:75-78) and applies it (103-104, C83_single_output_training), while
    RetroactiveMultiheadAttention.forward_step does skip it, unlike forward
    (C83_retroactive_training_refuted).  The encoder layers have dropout=0.1 by default.
51. nn.Dropout2d and nn.Dropout3d are converted (convert.py:157-158) though they drop a channel of
    a whole clip in forward and of single frames in forward_step (C84_channel_dropout_refuted).
    README.md:477 also lists nn.Dropout1d, which has no entry in convert.py:155-160.
52. nn.GroupNorm and nn.BatchNorm with track_running_stats=False are converted without a check (convert.py:149-154;
    nn.InstanceNorm is checked, 166-177) though their statistics extend over time: steps are not
    forward, in evaluation mode too (C85_group_norm_refuted, C85_steps_refuted).  In training mode
    nn.BatchNorm changes its running statistics with update_state=False (C85_update_state_refuted) and
    raises for single frames of batch size 1 without space (C85_single_value_refuted).
53. nn.Softmax, Softmin, LogSoftmax and LayerNorm are converted whatever their dimensions (convert.py:144-152,
    the comment says "has dim"): along time the steps are not forward, nn.Softmax(dim=-1) on clips without
    space returns ones (C86_softmax_ones, C86_softmax_time_refuted), and LayerNorm over time raises on
    frames (C86_layer_norm_time_refuted).
54. MultiheadAttention.build_from copies with copy_, which expands (mha_base.py:571-590): with kdim given, a
    key projection of one column is repeated instead of refused (C87_kdim_separate_refuted); bias=False
    for a module with biases raises AttributeError (C87_keyword_arguments).
55. nn.GLU is converted whatever its dimension (convert.py:134); with the default dim=-1 on clips without
    space every forward_step raises RuntimeError (C88_default_refuted).
