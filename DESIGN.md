# Formal model of DeepGNN: design

Source under study: /repo (microsoft/DeepGNN at the pinned commit).  The model is written in Rocq (Coq 8.16.1) under
`rocq/theories`.  The code is never executed: the only tie between the model and the code is the reading recorded in
the comment that accompanies each definition (file and lines in /repo, and the simplifications made).

## Layout

Every area has up to four files:

* `<Area>Model.v`  - executable Gallina functions mirroring the code branch by branch; exceptions are values.
* `<Area>Spec.v`   - the small specification used by the statements, independent of the model's helpers.
* `<Area>Proofs.v` - lemmas.
* `<Area>Props.v`  - the property theorems only, each closed by `exact`, followed by `Print Assumptions`, with
  `Example`s beside them that exhibit a concrete case meeting the hypotheses.

A property that is false of the faithful model is recorded as `..._refuted : exists ...` (a finding); the part that
does hold is proved under the exact guard the code needs and named `..._partial` when it is weaker than the property.

## Modelling conventions

* Integers are `Z`/`N` unless the property is about wrap-around; lengths and indices are `nat`.
* Bytes are `N` below 256; files are lists of bytes; little endian fields are encoded by an explicit function.
* Floating point values are opaque payloads (round trips), or rationals `Q` (probabilities, exact arithmetic).
* Random generators are oracle arguments: a theorem quantifies over every oracle.
* Threads, processes and network replies are modelled by the order in which their events happen; a theorem quantifies
  over every order.

## Plan per property

| id | model and proof plan |
|----|----------------------|
| C01 | Byte level model of BinaryWriter/NodeWriter/EdgeWriter files and of the C++ loader (`Binary*` files). Round trip by induction over the record stream: query(load(write g)) = spec on g. |
| C02 | Same writer/loader model plus `NodeMap*` for several partitions. First non-placeholder type in load order. |
| C03 | Feature index/data files in the same byte model; lookup function of GetNodeFeature; equality with `take size (value ++ zeros)`. Where stored size 0 is not checked by the code, findings as `_refuted`. |
| C04 | Edge index + feature files, EdgeFeatureOffset (linear and lower_bound branches). |
| C05 | NeighborCount and FullNeighbor models over the loaded partition, sum over partitions. |
| C06 | FullNeighbor with timestamps: filter specification. |
| C07 | Binary search models of find_start/find_last. Full claim refuted with witness; proved for lists ordered by created and removed. |
| C08 | _make_sorted_list = sort of dedup; result depends only on the set of types. |
| C09 | Byte level serializer (`Temporal*`), binary search of the reader, round trip. |
| C10 | Heap of (created, position) as a multiset with capacity; result is a top-N selection. |
| C11 | Index state machine of Graph::ReadNodeMap; invariant: lookup = occurrences so far in load order. |
| C12 | Dispatcher join as a fold over any permutation of worker outputs; totals equal counts on the input. |
| C13 | Vose over Q, loop invariant on small/large stacks; mass identity. |
| C14 | Samplers with the random stream as an oracle argument; membership invariants for all oracles. |
| C15 | Exact finite distributions over Q of the slot process; full claim refuted by the slot cursor; single slot case proved. |
| C16 | Reservoir model + temporal cursor model; temporal claim refuted with witness; non temporal proved. |
| C17 | AlgorithmL as state machine with oracle skips; invariant over batch histories. |
| C18 | Exact marginal distribution over Q by induction over the batches. |
| C19 | Merge state machine; distinctness; refutation of proportionality with three shards. |
| C20 | SamplerImpl with binomials as oracle; clamping arithmetic; exhaustiveness. |
| C21 | Identity p_i * prod_{j<i} (1-p_j) = w_i/W over Q. |
| C22 | Client merge as a function of the reply list and of an arrival permutation; equality with the per node concatenation. |
| C23 | Sum over replies, permutation invariance. |
| C24 | response_index merge as a fold over arrivals; max timestamp; refuted on ties, proved for unique maxima. |
| C25 | Local vs server implementation; refuted for placeholders; proved otherwise. |
| C26 | Cursor model of UpdateStringFeatureIndex / UpdateSparseFeatureIndex; refuted with witnesses.  Sparse: invariant over the callbacks (table of entries = first server with a value), offsets as lengths of prefixes of the reply. |
| C27 | Walk model with the uniform draws as oracle; step invariant; non-edge step refuted on directed graphs; symmetric graphs proved. |
| C28 | Push loop over Q with fuel; mass invariant, residual bound at exit. |
| C29 | Bytes, blocks and threads as functions; equality with the line split of the whole file (blank line behaviour refuted separately). |
| C30 | Queue interleavings as shuffles of item events and the done event; consumer as state machine. |
| C31 | Index arithmetic of _NumpyIterator; coverage of epochs*length positions. |
| C32 | Index arithmetic of _RangeNodeIterator; refuted for data_parallel_num>1; proved for 1. |
| C33 | Residue class partition. |
| C34 | Batch counting vs formulas; refuted and proved parts. |
| C35 | gen_skipgrams loop; refuted for different windows; proved for equal ones. |
| C36 | BFS over an arbitrary neighbor function. |
| C37 | np.unique with inverse as sort/dedup + index. |
| C38 | Aliasing of list rows modelled with a store of row addresses; refuted; proved for one partition. |
| C39 | Interval arithmetic; disjointness/cover proved; input loss refuted. |
| C40 | HDFSStreamStorage buffer as state machine; refinement to the byte list. |
| C41 | convert_features sparse layout vs deserialize_sparse_features. |
| C42 | Feature index lookups with exact lengths. |
| C43 | Field splitting and escape loop over strings. |
| C44 | Sort key model; permutation and sortedness. |
| C45 | Loop of _extract_server_index; bijection hosts/indices. |
| C46 | Directory order as arbitrary permutation; refuted. |
| C47 | Direct model; refuted, proved for 0..n-1. |
| C48 | Cache keyed by string; state machine over call histories; refuted for edges, proved for nodes. |
| C49 | Transition system over files and processes; invariants over all schedules. |
| C50 | Transition system of call frame and callbacks; refuted schedule; proved when no failure. |
| C51 | Merge model with oracle; membership; marginal over Q. |
| C52 | Client loops with per server counts; edges proved for every split (a server without sampler is asked for 0 edges, and the error of its empty sampler is dropped on the way: call_data.cc 263-266); nodes proved unless the last server with a sampler has no element. |
| C53 | Metadata serialization as field records; round trip. |
| C54 | Shape by induction over fanouts. |
| C55 | Slice arithmetic. |
| C56 | Feature lookup bounds; refuted cases. |
| C66 | The client half of C26 over any elements; the server half from the edge search (C04) and the feature index.  String reads need some edge feature in the conversion (`readable`). |
| C67 | State machine of clients, completion queues, call objects, threads and destructor; invariants by induction over events, a decreasing cost for termination, and a case analysis of states with nothing to do. |
| C68 | Names as lists of characters, filesystems as lists of files with opaque contents; injectivity of the decimal numbers in names, a characterisation of what a directory scan finds, and a simulation between source and downloaded folder. |
| C69 | State machine of dispatcher, pipes and workers; invariant that messages taken, waiting and unsent make up the program of every worker; case analysis of states without an enabled action; decreasing cost; link to the sequential model of C12. |
| C70 | State machine of the uploader; per process invariant that chunks taken by threads, in the inner and in the outer queue make up its round robin share; per thread invariant on files; case analysis of states without an enabled action; decreasing cost. |
| C71 | Item types with encode and decode; one lemma for each shape of answer (dense, string, sparse), composed with C03, C04, C09, C41, C42. |
| C72 | The loop as a fold; an invariant of every directory that was ever on the disk (valid checkpoints, none later than the current point), closed under interruption. |
| C73 | Tasks as program counters over a set of files; an invariant ties the files to the calls begun, the order of tags gives progress, a potential bounds the accesses. |
| C74 | stacks of encoders as lists of layers; query with np.unique, forward with the mean aggregator; one and two layers against a recursive definition |
| C75 | The loop as a state machine whose turns take the drawn numbers; an invariant for the sample, a potential for one fire, a construction of draws that end the loop. |
| C76 | Sampler arguments resolved by name over environments; the configuration of FileNodeSampler composed with the coverage theorems of C31 and C33; passes over iterators for tf.data. |
| C77 | Exact rational arithmetic with an abstract exponential that underflows; softmax with the greatest score subtracted; the relation attends as specification of one output. |
| C78 | Levels of a forest of trees built from the answers of the graph; invariant of the triangular loop: after l layers hop h holds the embeddings of layer l of level h. |
| C79 | Cells of products with diagonal matrices; sorted lists are unique up to permutation; invariant of the triangular loop over forests; attention lemmas of C77. |
| C80 | Piecewise rational functions: case analysis on the phase, then linear arithmetic; cosine and power by their monotonicity. |
| C81 | The second topk inverts the permutation of the first (a strictly rising arrangement is the identity); then counting before and after a position. |
| C82 | Words as an inductive relation; the loop over cells as a fold of writes; UTF-8 automaton at the cut; induction over nested contexts; masked softmax by the lemmas of C77. |
| C83 | Words as an inductive relation; invariant of the loading loop by the rows read so far; text as lines of the models of reader and decoder; counts of pairs for links. |
| C84 | Words as an inductive relation; invariant of the loading loop by the rows read so far; text as lines of the models of reader and decoder; counts of pairs for links. |
| C85 | The loop as a grouping of the sorted rows; changes of key counted against distinct keys; composed with C09 for one student. |
| C86 | Scatter and gather as updates of lists; sorted test numbers compared with an interval; counting by permutation of index lists. |
| C87 | Induction over the loop for all lists of answers; the bound of half a buffer shown exact; addresses by positions of the first slash and colon. |
| C88 | Round trips by lemmas about split and join; shares of a group by induction over the range and a permutation argument; start of a server as an equivalence with a relation. |
| C89 | Lines by induction over the text; invariant of the table: row i is the last record of node i read so far; permutations of files by agreement of records. |
| C90 | Lockstep machine over lists of collective operations; equal replicas as invariant; termination as equality of shapes in both directions; refinement to gradient descent in one process by columns of batches. |
| C91 | Arrays as shape and cells with uninitialised cells; answer of the engine as an argument; indices of rows in a concatenation; counting by sorted sets. |
| C92 | Retry loop with fuel shown sufficient by induction; waits as a map over attempt numbers; digits of durations; writes to arrays compared cell by cell. |
| C93 | Positions in sorted distinct ids are injective; masks over rows of equal width are split row by row; neighbors from C10; induction over the batches of an epoch; quantiles over sorted times agree with a threshold at a row. |
| C94 | Appending to lists keeps the lists as filters of the sequence of events; the events of a start type fall in its block of lists; sums over lists and hops exchange; losses of padded rows are constant. |
| C95 | Induction over nested data with a principle for lists of children; success characterised by what is at each path; positions in lists of types. |
| C96 | Neighbors from C01; rounding to 24 bits is the identity exactly on multiples of a power of two with a short quotient; sums of means times sizes. |
| C97 | Trees of sampled nodes from C78 for both ends; positions in merged lists split back into sources, positives and negatives; rank from C81. |
| C98 | Offsets of flattened neighbor lists; induction over batches; membership in lists of collaborations against pairs of places in papers; rejection of draws. |
| C99 | Views and permutations read by position; attention over the visible from C77; agreement of rows kept by every layer; chunks of layers appended. |
| C100 | find as first occurrence; the loops as the last write; strict load as equality of sets of names. |
| C101 | Patterns without digits are found before or after the number of the layer; parts that wait are a prefix of a group of three; writes collected and applied. |
| C102 | Walks by induction over the hops with division of positions; regrouping as reading a flat list of rows at a position; closed form of F1. |
| C103 | Invariant over all interleavings: who holds the lock, what is known at each place of the program; a rank that falls with every step. |
| C104 | Invariant over all interleavings: every byte of a file is right or a writer is still before it; induction over sequences of calls. |
| C105 | Refinement: variable by variable the TensorFlow loop takes the step of the HuggingFace loop; then C101. |
| C106 | Texts as pieces between unbordered words; overlaps decided by computation; induction over pieces and files. |
| C107 | Executions as lists of epochs; lines as a function of numbered batches; induction with the time of the last line; names split at the last underscore. |
| C108 | Invariant over executions (locks and cache as functions of the place), measure for termination, exact condition for a deadlock; remainders for partitions. |
| C109 | Traces of stages with any outcome; induction over epochs for fit, over nodes for batches; case analysis for options. |
| C110 | Last separator of names, invariant over calls, induction over rows and axes. |
| C111 | Masks by induction over updates, sorted lists with the same elements, residues of strides, induction over epochs. |
| C112 | Sorting by keys against order of first occurrences, uniqueness of sorted lists, inverse indices. |
| C113 | Induction over arguments, cases over options. |
| C57 | Bit level model mod 2^64 over N; injectivity via explicit inverse. |

## Trusted base

* Coq's kernel (8.16.1) and its checker; no plugin of ours, no axiom of ours.
* What `Print Assumptions` prints for each theorem in the `*Props.v` files (summary kept at the end of this file).
* The faithfulness of the reading of /repo recorded in comments.

## Mutation tests

`seeded/LOG.jsonl` records one wrong program per line: a definition of a model is edited in a scratch copy and the
development is rebuilt.  How to read it:

* `theorems_failed` names the statements at which compilation stopped.  Most of them are lemmas of a `*Proofs.v` file:
  everything that depends on a failed file is not compiled, so a property theorem of the claim is then unproved, but
  the log does not show that it is false of the edited model.  A lemma that follows the definition closely fails for
  every edit, also for one that leaves the property true.
* Lines with a `note` come from a faster run that stops at the first failing statement, so later ones were not tried.
* An empty list is an edit that nothing noticed; it is either equivalent (the note says so) or led to the theorems in
  `theorems_tightened`.

## Modelled and not modelled

Modelled (each definition cites its lines):

| area | files | code |
|------|-------|------|
| record stream to binary files | WriterModel | converter/writers.py: BinaryWriter, NodeWriter, NodeFeatureWriter, EdgeWriter, EdgeFeatureWriter |
| binary files to memory | LoaderModel | partition.cc loaders, NeighborIndexIterator, FullNeighbor, NeighborCount, find_start, find_last |
| graph level lookups | GraphModel | graph.cc constructor, ReadNodeMap, GetNodeType, FullNeighbor, NeighborCount; snark/client.py wrappers |
| features | FeatureModel | convert_features, JsonDecoder._serialize_temporal_features, Get{Node,Edge}{,Sparse,String}Feature in partition.cc and graph.cc |
| last N neighbors | LastNModel | partition.cc LastNCreatedNeighbors, graph.cc LastNCreated, client.py lastn_neighbors |
| metadata | MetaModel | dispatcher.py, convert.py, converter/process.py, meta_merger.py, meta.py Meta, get_worker_files, metadata.cc, GetMetadata, WriteMetadata |
| Alias tables | AliasModel, AliasProofs, AliasFileProofs | alias.py Vose, writers.py NodeAliasWriter/EdgeAliasWriter, the draw of sampler.cc WeightedNodeSamplerPartition/WeightedEdgeSamplerPartition; exact rationals instead of floats |
| Reservoirs | ReservoirModel, ReservoirProofs, ShardProofs | reservoir.cc AlgorithmL (random numbers as oracles), WithReplacement and WithoutReplacementMerge (as finite distributions) |
| Samplers over types and partitions | SamplerModel.v | sampler.cc SamplerImpl constructor and Sample 31-150, partition samplers 279-346, 440-628, conditional_probabilities 631-652 |
| Neighbor sampling | NeighborModel.v | partition.cc SampleNeighbor 1129-1345, UniformSampleNeighborWithReplacement and WithoutReplacement, graph.cc SampleNeighbor 442-472 and UniformSampleNeighbor 494-545 |
| Queries through servers | ServerModel.v | graph_engine.cc GetNodeTypes, GetNodeFeatures, GetEdgeFeatures, GetNodeSparseFeatures, GetNodeStringFeatures, GetEdgeSparseFeatures, GetEdgeStringFeatures, GetNeighborCounts, GetNeighbors; client.cc counterparts; merger.h Extract*/Update*.  Callbacks are atomic steps of a schedule (the string and sparse ones lock per feature in the code), the unlocked writes of GetNodeType are interleaved in any order; replies are lists, every server answers (failures: C50). |
| File and range samplers, split of work | IterModel.v | samplers.py get_files, _GEIterator, GENodeSampler/GEEdgeSampler counts, _NumpyIterator, FileNodeSampler/FileEdgeSampler/FileTupleSampler lengths and lines, RangeNodeSampler, CSVNodeSampler; _adl_reader.get_worker_files; distributed.Server partitions.  Not modelled: parsing of lines, RangeEdgeSampler; TextFileSampler is in ReaderModel.v. |
| Operations composed from queries | GraphOpsModel.v | graph_ops.py get_skipgrams_size, gen_skipgrams, sub_graph; multihop.py sample_fanout, _full_neighbor, get_neighbor.  Not modelled: sample_out_edges, numpy dtypes. |
| Server placement, addresses, client partitions, sampler caches | SetupModel.v | backends/snark/client.py, snark/local.py (constructor, sample_nodes, sample_edges) |
| Decoders: edge list, JSON (after json.loads), TSV (lines without quotes) | DecoderModel.v | snark/decoders.py EdgeListDecoder, JsonDecoder.decode/_pull_features, TsvDecoder; not: numpy conversion and float() (arguments), json.loads, csv quoting; _serialize_temporal_features is in FeatureModel.v |
| Random generator | XoroModel.v | src/cc/lib/graph/xoroshiro.h; the distributions built on it (boost, std) are oracles or ideal laws elsewhere |
| Storage back ends | StorageModel | storage.h MemoryStorage, DiskStorage, HDFSStreamStorage reads; hdfs_wrap.cc 221-247 without retries |
| Sampling through servers | DMergeModel, DMergeProofs, DSampleProofs, DMergeProps | client.cc WeightedSampleNeighbor, CreateSampler, SampleNodes, SampleEdges; merger.h MergeWeightedSampledNeighbors; graph_engine.cc WeightedSampleNeighbors; graph_sampler.cc Create and Sample |
| Random walks | WalkModel, WalkProofs, WalkGraphProofs, WalkOrderProofs, WalkProps | py_graph.cc RandomWalk, client.py random_walk; not modelled: the error code of the neighbor request, which RandomWalk ignores |
| Personalised PageRank | PprModel, PprProofs, PprBest, PprGraphProofs, PprProps | py_graph.cc PPRSampleNeighbor with lookup_neighbor_lists and lookup_neighbor_counts, client.py ppr_neighbors |
| Start and stop of servers and clients | SyncModel | synchronized.py |
| Requests and reply threads | CallModel | client.cc AsyncClientCall, WaitForFutures, constructor, AsyncCompleteRpc, the loop over shards; gRPC itself is two kinds of events |
| Prefetching | PrefetchModel | prefetch.py (BoundedExecutor, _produce_func, Generator with one producer) |
| Text reader | ReaderModel, ReaderProofs, ReaderProps | _adl_reader.py TextFileIterator, TextFileSplitIterator; samplers.py TextFileSampler. File contents as bytes; UTF-8 decoding and str.splitlines modelled; the reader thread and its pool as the sequence of queue items they produce (threads fill disjoint slots); random.shuffle of the buffer as an oracle, of the file list as the order of [files]; ADL access, queue capacity and join() not modelled |
| Last-N neighbors through servers | DLastNModel | graph_engine.cc 517-567, merger.h 169-243, client.cc 592-630 |
| Uniform neighbor sampling through servers | DUniformModel | graph_engine.cc 626-688, client.cc 771-885 |
| Server threads and call objects | HandlerModel.v | server.cc 120-236 (constructor, destructor, HandleRpcs), call_data.cc (constructors and Proceed of all fifteen call objects); gRPC itself is assumed to behave as the header of the file says (queues return each registered object once, Shutdown waits for accepted requests unless cancelled, no use of a queue that is shut down) |
| File names and downloads | FilesModel.v | snark/meta.py 18-93 (names), writers.py (which files), locator.cc 25-73, graph.cc 58-97 (suffixes, local and HDFS), partition.cc 136-150, 184-200, 339-351 (what is opened), sampler.cc 215-236, 296-320, 358-378 (alias tables), snark/_downloader.py 34-102 |
| Conversion processes | DispatchModel.v | dispatcher.py 140-171, 316-351, 387-388, converter/process.py 46-86, convert.py 143-150 |
| Upload to Azure | UploadModel.v | adl_uploader.py without ADL errors, task_done and logging |
| Typed arrays | TypedModel.v | writers.py convert_features (dtype), snark/client.py feature queries and callbacks; not modelled: numpy broadcasting and copies |
| Training loop and checkpoints | TrainModel.v | pytorch/training/trainer.py _train, _train_one_epoch, _train_one_step, _should_stop, _save_checkpoint, _load_checkpoint, _init_max_steps, the loops of _evaluate and _inference, pytorch/common/utils.py get_sorted_checkpoints, rotate_checkpoints; model, optimizer and loss are one argument; not modelled: metrics, logging, FP16, DDP and Horovod (these are in ParallelModel.v), sorting by mtime (no caller) |
| File barrier of TensorFlow workers | BarrierModel.v | tf/common/dist_sync.py; the calls in horovod_trainer.py, ps_trainer.py, trainer.py, hooks.py as lists of tags; not modelled: os.remove that raises, file names (tag and index) |
| GraphSAGE encoder (PyTorch) | SageModel.v | pytorch/encoding/gnn_encoder_sage.py query, query_feature, forward; pytorch/common/aggregators.py; not modelled: the arithmetic of mean, matmul and activation (arguments), the batch dimension added by a data loader |
| Forest fire sampling | ForestModel.v | snark/preprocess/sampler/forest_fire.py; average_clustering of metric.py up to the exception; not modelled: the other metrics, NetworkX itself (a graph is its lists of nodes and edges), probabilities of the draws |
| Datasets | DatasetModel.v | graph_engine/graph_dataset.py DeepGNNDataset.__init__, init_sampler, __len__; pytorch/common/dataset.py; tf/common/dataset.py create_tf_dataset as far as it iterates; signatures of all samplers of samplers.py; not modelled: query_fn, shapes and types of tensors, create_backend, get_distributed_dataset |
| Attention | AttModel.v | pytorch/nn/gat_conv.py, tf/nn/gat_conv.py, pytorch/encoding/gnn_encoder_gat.py, tf/layers/attention_header.py, tf/encoders/att_encoder.py; HANEncoder.__init__ and the choice of heads; exact arithmetic, the exponential is an argument; not modelled: dropout, training, HANEncoder.call (reshapes), SimpleAttLayer, duplicate entries of sparse matrices (PyTorch adds their scores) |
| TensorFlow GraphSAGE | TfSageModel.v | tf/nn/sage_conv.py aggregate, LSTMAggregator (gather), __init__ with bias; examples/tensorflow/sage/sage.py SAGEQuery._sample_n_hop_neighbors, _query_neighbor, GraphSAGE.call up to aggregate; not modelled: the arithmetic inside the aggregators (arguments), loss, metrics, prediction layer |
| Graph convolutions and hop encoders | ConvModel.v, TfSageModel.v | tf/nn/gcn_conv.py; pytorch/encoding/gnn_encoder_lightgcn.py, gnn_encoder_lgcl.py, gnn_encoder_hetgnn.py (attention over types); not modelled: dropout, the arithmetic of Conv1d, Linear and LSTM layers (arguments), rounding, hidden dimensions of one in LGCL (squeezed too), OUTPUT layer of LGCL, HetGNN with zero or one type |
| Learning rates | ScheduleModel.v | pytorch/common/optimization.py; pytorch/training/trainer.py _create_lr_scheduler and the rates it leads to; cosine and power are arguments with the properties of ScheduleSpec.v, rounding is not modelled; LambdaLR itself (a multiplication) is trusted |
| Metrics | MetricModel.v | pytorch/common/metrics.py MRR; pytorch/modeling/base_model.py compute_metric; pytorch/training/trainer.py _evaluate (the metric); tf/nn/metrics.py masked_accuracy; examples/tensorflow/sage/sage_unsupervised.py _calc_mrr; not modelled: F1Score, Accuracy and ROC (scikit-learn), cross entropy, float rounding |
| Text features | TextModel.v | pytorch/encoding/twinbert/tokenization.py; pytorch/encoding/feature_encoder.py TwinBERTFeatureEncoder (get_feature_dim, _tokenize, _extract_sequence_id_and_mask, transform); twinbert/embedding.py TriletterEmbeddings.forward; twinbert/pooler.py WeightPooler.forward; str.lower and BertTokenizer.encode are arguments; not modelled: the BERT encoder, forward of the feature encoders, MultiTypeFeatureEncoder, checkpoints of TwinBERTEncoder, splitting of the vocabulary file into lines |
| Graphs from downloaded files | RawModel.v | graph_engine/data/data_util.py get_edge_list_node, write_node_files, select_training_test_nodes, Dataset; cora.py and citeseer.py _load_raw_graph; ppi.py and reddit.py _load_raw_graph, _build_graph, _write_node_files, _to_edge_list_node, _onehot; the text goes through the models of TextFileIterator and EdgeListDecoder; float() and str() of floats, random.shuffle and the down-sampling mask are arguments; not modelled: download and extraction of archives, StandardScaler, JSON and npy parsing, logging besides the min of no nodes |
| MOOC interactions | MoocModel.v | graph_engine/data/mooc.py _serialize_temporal_features, _edge_iterator, name of the archive; not modelled: csv parsing, float columns, _build_meta, _edges |
| Citation datasets | CitationModel.v | graph_engine/data/citation.py sample_mask, placing of test rows and masks in load_data, random_split, get_node_types, _write_node_files; not modelled: pickles, adjacency, preprocess_features, text of graph.csv (same format as C84) |
| Remote files | HdfsModel.v | graph/hdfs_wrap.cc parse_hdfs_path, HDFSConnection::read, read_hdfs, is_hdfs_path, the port of hdfsConnect; py_graph.cc HDFSMoveMeta; metadata.cc 28-47; the answers of hdfsRead are an argument; not modelled: dlopen, the JVM, errors of fopen and fwrite, writing meta.json byte by byte (one step) |
| Command line | ArgsModel.v | arg_types.py vec2str, str2bool, str2list_int, str2list2_int, str2list2, str2list_str; snark/server.py Server.__init__ (the partitions handed to StartServer), main (choice of partitions); not modelled: argparse, download, TLS, the running server |
| Embedding files | EmbedFileModel.v | tf/common/utils.py node_embedding_to_string, load_embeddings; the write loops of tf2_trainer.py and trainer.py (batches are a list); pytorch/modeling/base_model.py output_embedding for vectors of ids and batches of one vector; float formatting is an argument; not modelled: file names, TensorFlow sessions, ids of more dimensions |
| Data parallel training | ParallelModel.v | pytorch/training/trainer_ddp.py, trainer_hvd.py (order of clipping and synchronisation), trainer_fp16.py (order only), the loops of trainer.py as sequences of collective operations; gradients are exact rationals, the optimizer and clipping arguments; collective operations match by order; not modelled: hvd.join, loss scaling, buckets, GPU streams |
| Graph interface | FacadeModel.v | snark/local.py __check_types, sample_neighbors, random_walk (types), node_count, edge_count; snark/client.py arrays of weighted_sample_neighbors, uniform_sample_neighbors, ppr_neighbors, lastn_neighbors, get_node_type_count; graph_ops.py sample_out_edges; the engine is an argument; not modelled: dtypes, logging, retries, reset |
| Retries | RetryModel.v | snark/client.py _parse_grpc_options, the retryers of MemoryGraph and DistributedGraph with tenacity's stop_after_attempt and wait_exponential (described in the header); json.loads is an argument; not modelled: retries inside gRPC, logging |
| Temporal interactions | TgnModel.v | examples/pytorch/tgn.py make_train_val_test_batches, predict (ids, times, neighbors, positions, what the memory is fed), train (loss), test; np.quantile over rationals; the graph is LastNModel; not modelled: TGNMemory and the layers of torch_geometric, edge features, sampling of negatives (argument), rounding |
| Triples of typed nodes | HetModel.v | examples/pytorch/hetgnn/sampler.py (random walks, lists of triples, batches), model.py forward (padding), cross_entropy_loss, query_inference (type of a batch); the graph's answers, the embeddings of triples and log(sigmoid) are arguments; not modelled: the layers (content and neighbor RNNs, attention), rounding |
| Nested batches | NestModel.v | pytorch/common/utils.py to_cuda; pytorch/encoding/feature_encoder.py TwinBERTFeatureEncoder.forward, MultiTypeFeatureEncoder, get_feature_encoder (types); what an encoder computes is an argument; not modelled: shapes (view, squeeze), sharing of one object between places |
| PyTorch Geometric | PygModel.v | examples/pytorch/pyg_interface.py edge index (neighbors of GraphModel, conversion of ids), shapes of features, loss of an epoch, score; not modelled: the loader and layers of torch_geometric, values of features (C03) |
| GraphSAGE in TensorFlow, link prediction and unsupervised | TfLinkModel.v | examples/tensorflow/sage/sage_linkprediction.py and sage_unsupervised.py: queries, tuples of tensors, scores, losses, MRR, steps; arguments: l2_normalize, sigmoid, cross entropy; not modelled: dropout, gradients, AUC |
| Academic graph and tasks of HetGNN | AcademicModel.v | examples/pytorch/hetgnn/graph.py (graph in memory, loaders), main.py 218-292 and 385-464 (files of collaborations, venues), evaluation.py (columns, F1); random choices are arguments; not modelled: parsing of files, random walks, sklearn, AUC, K-means |
| BERT | BertModel.v | pytorch/encoding/twinbert/deepspeed/nvidia_modeling.py: embeddings, attention, layers, encoder, pooler, BertModel.forward; loss.py FocalLoss; arguments: exponential, dense layers, normalisation, activations; not modelled: dropout, DeepSpeed kernel, heads for pretraining and tasks, loading of checkpoints, float rounding |
| Checkpoints of TwinBERT | CkptModel.v | pytorch/encoding/twinbert/encoder.py 111-175; argument: whether a tensor has the shape of a parameter; assumed: strict load_state_dict; not modelled: torch.load, OrderedDict, the order in which load_state_dict copies before an error |
| Conversion of BERT checkpoints | HfModel.v | pytorch/encoding/twinbert/deepspeed/convert_bert_ckpt_to_deepspeed.py 19-25, 174-343; arguments: rows of arrays, a row of zeros; not modelled: attributes of modules that are no parameters, tied parameters, logging |
| HAN | HanModel.v | examples/tensorflow/han/han.py 27-215, tf/encoders/han_encoder.py 15-151; arguments: the graph, sampled neighbors, trained weights, exponential, sigmoid; not modelled: losses, gradients, embedding_fn, types of labels |
| Logger of the package | LogModel.v | logging_utils.py 25-27, 38-48, 115-158; arguments: the class of loggers, failures of dictConfig and of the azure handler; not modelled: get_current_user, log_telemetry, levels, the configuration itself |
| Cache of downloads | CacheModel.v | pytorch/encoding/twinbert/deepspeed/file_utils.py 46-242 with urllib.parse.urlsplit; arguments: sha256, answers of servers; not modelled: errors of the local disk, read_set_from_file, get_file_extension, progress bars |
| Conversion of TensorFlow checkpoints | TfCkptModel.v | pytorch/encoding/twinbert/deepspeed/convert_bert_ckpt_to_deepspeed.py 26-172, 327-343; arguments: rows of arrays, a row of zeros, np.transpose; not modelled: reading the file, the ImportError without TensorFlow, logging |
| Migration of scripts | MigrateModel.v | migrate/0_1_56.py, 0_1_57.py with str.replace and universal newlines; arguments: pasta.parse and pasta.dump, rename_external; not modelled: encodings, links, interruptions |
| Eager trainers of TensorFlow | EagerModel.v | tf/common/tf2_trainer.py, tf2_horovod_trainer.py, the fields of base_trainer.py; executions of Keras are arguments (epochs, batches, times, logs); not modelled: TensorBoard, telemetry, formatting of numbers, the work of the model |
| Distributed client, server and the Azure ML example | AmlModel.v | snark/distributed.py (partitions of a server, arguments of a client, __reduce__); examples/pytorch/aml.py (ServerLock, ServerContext, train_func without its queries); not modelled: Ray, json, the query at the end |
| Entry points | EntryModel.v | pytorch/training/factory.py (get_trainer, run_dist); tf/common/trainer_factory.py; run_train, run_inference and _main of examples/tensorflow/sage/main.py and main_unsup.py, run_train of gat/main.py in eager mode; Model.fit of Keras 2.13 and DataLoader.__init__ of torch 1.13.1 as read; not modelled: get_args, graph mode, devices, run_eval, build_model |
| Base layers of TensorFlow models | TfLayerModel.v | tf/layers/base.py (Layer.__init__, __call__, Dense, Embedding, SparseEmbedding); tf.matmul, tensordot, bias_add, reshape, embedding_lookup and embedding_lookup_sparse as documented; not modelled: initialisers, partitioners, print_model_variables, scopes around layers, gradients, ids out of range on GPUs |
| GCN and GAT examples | GnnExModel.v | examples/tensorflow/gcn/gcn.py and gat/gat.py (query_training, predict_step), examples/pytorch/gat.py (GATDataset.__iter__, squeezes of forward, loops of _train_func), examples/pytorch/gcn.py (query, masks and loop of _train_func); not modelled: layers (ConvModel, AttModel), Ray, optimisers, metrics (MetricModel), gcn_norm |
| GraphSAGE example without labels | SageExModel.v | examples/pytorch/sage.py (SageDataset, batches of train, edges of _prepare_evaluation_data); answers of sample_edges, sample_neighbors and neighbors and values of numpy's generator are arguments; not modelled: layers of torch_geometric, optimiser, logistic regression, values of the loss |
| Options of the graph engine | OptModel.v | backends/options.py, snark/converter/options.py, defaults in graph_engine/utils.py, graph_dataset.py create_backend, arguments of clients and servers about TLS and gRPC in backends/snark/client.py 48-137, distributed.py, server.py, py_graph.cc 281-287, server.cc 133-140; not modelled: arguments named like attributes of Python objects, contents of certificates |

Not modelled there: pickling/JSON text of the metadata (its fields are), file system errors, `mmap`/HDFS access (see
C40), multi threading of the loader (`parallel_for` over nodes writes disjoint output ranges), numpy dtype conversion of
the returned byte arrays.

## Findings

Behaviour of the code that contradicts the natural reading of a property; each has a machine checked witness.

| theorem | what the code does |
|---------|--------------------|
| C01_missing_type_refuted | NeighborIndexIterator loses a requested type when the types stored for the node have a gap in the request |
| C01_weight_refuted | weights are differences of float32 running sums, small weights after large ones come back as 0 |
| C06_removed_at_zero_refuted | `removed_at or node_removed_at`: removal at time 0 is replaced by -1/never |
| C11_path_with_two_suffixes_refuted | two file sets under one path: lookups mix partitions |
| C04_unsorted_duplicates_refuted | more than 16 parallel edges: binary search on unsorted destinations returns a later duplicate |
| C09_edge_in_two_blocks_refuted | GetEdgeFeature does not compare times across blocks, the last block wins |
| C09_equal_times_refuted | two entries with equal created_at: first at that time, last afterwards |
| C42_features_in_two_partitions_refuted | lengths in request order, bytes in storage order |
| C42_no_edge_features_refuted | GetEdgeStringFeature indexes an empty vector |
| C42_newer_value_refuted | replacing an older value truncates the end of the shared output |
| C41_flat_coordinate_refuted | a flat coordinate list of one value is read back as several points |
| C41_empty_coordinate_refuted | empty coordinate tuple: division by zero in the reader |
| C41_replaced_points_refuted | a newer sparse value from another partition removes only one point of the older one |
| C41_replaced_empty_refuted | after an empty value the next replacement removes the point of another node of the query |
| C56_temporal_empty_value_refuted | an empty temporal value is parsed from the bytes of the next feature |
| C07_removal_order_refuted | an edge removed before an earlier created one is still counted |
| C07_creation_order_refuted | edges not ordered by creation are not counted |
| C07_large_timestamps_refuted | find_start narrows the timestamp to int: removed edges are counted for timestamps above 2^31 |
| C10_removed_edge_refuted | lastn returns an edge removed exactly at t, neighbors does not |
| C10_zero_count_refuted | count 0 reads the top of an empty priority queue |
| C12_negative_type_refuted | a node of type -1 is counted as a node of the last type (negative list index) |
| C12_queue_unused_partition_refuted | QueueDispatcher with an unused partition: ids in meta.json have a gap and the engine fails to load it |
| C38_shared_rows_refuted | `[[0.0] * n] * m` shares one row: every partition gets the sum over the partitions of its converter |
| C38_eleven_workers_refuted | meta_10.json is merged before meta_2.json and partitions are renumbered, weights go to other partitions |
| C38_more_types_refuted | types unknown to the first converter are dropped from the per type counts |
| C38_fewer_types_refuted | a converter with fewer types makes the merge raise IndexError |
| C39_input_lost_refuted | a converter without partitions returns before reading its files: their lines are in no partition |
| C19_three_shards_refuted | WithoutReplacementMerge::add does not update m_seen in the merge branch (reservoir.cc 126-174): with three or more shards the later ones are favoured (1/2 instead of 1/3). |
| C19_shuffle_refuted | sample_n (reservoir.cc 95-111) swaps every element with a strictly later one, so no element stays in place: with two shards of two items and k = 2 an item is kept with probability 1/6 instead of 1/2. |
| C20_overflow_refuted | sampling nodes without replacement from partitions with 10 and 5 nodes, size 8: a binomial draw of 2 is raised to the partition maximum 10, `left` wraps around and the output span is overrun (sampler.cc 92-129) |
| C20_no_types_refuted | a sampler none of whose types exist (or without partitions) computes partial sums over the range [last, last - 1) (sampler.cc 56, 68) |
| C14_far_removal_refuted | weighted sampling at time 5 returns an edge created at time 10 when its removal time is 2^31 + 5: find_start narrows times to int, the range found is empty, and the weight of the previous edge is taken for its weight (partition.cc 701-717, 1173-1184, 1254-1262) |
| C14_creation_time_refuted | uniform_sample_neighbors with return_edge_created_ts and without timestamps writes creation times to an empty span (graph.cc 503-506, 539-543) |
| C15_first_slot_refuted | two partitions with one edge of weight 1 each, two slots: the first slot holds the edge of the second partition with probability 3/4, because overwritten slots are filled from the front (partition.cc 1267-1301, 1321-1341) |
| C15_type_order_refuted | two edges of weight 1 with different types, two slots: the first slot holds the second edge with probability 1/4, since slots are filled in the order of types |
| C15_expected_number_refuted | edges of weights 1 and 1 (two types) in one partition and 2 in another, two slots: the expected number of slots with the first edge is 3/8 and not 1/2 |
| C16_times_refuted | uniform sampling without replacement at time 5 from edges with lives [0,6) and [1,7) returns the first edge twice: streams are stored relative to an advanced position but read from the start of the group |
| C24_tie_refuted | client.cc GetNodeFeature compares timestamps with <=: with two servers holding different values of the same age (always the case without timestamps) the answer depends on which callback runs last. |
| C24_edges_refuted | client.cc GetEdgeFeature copies every reply that has the edge: the last callback wins whatever the timestamps. |
| C25_placeholder_refuted | A node that only has edges has type -1 locally and the default type through servers. |
| C25_two_types_refuted | Different node types of one node on two servers: the answer depends on the order of the callbacks. |
| C26_missing_refuted | merger.h UpdateStringFeatureIndex takes one timestamp per non-empty feature while the server sends one per feature: after a missing feature the timestamps are shifted and an older string is returned for every order of replies. |
| C26_sparse_refuted | merger.h UpdateSparseFeatureIndex never stores the timestamp of an entry: the first reply wins whatever its age. |
| C31_shuffle_refuted | samplers.py _NumpyIterator: every data parallel process draws its own permutation, so with shuffle rows are duplicated and lost within an epoch. |
| C32_lost_refuted | _RangeNodeIterator.__next__ rounds the number of ids left down when cutting the last batch: with data_parallel_num > 1 ids at the end of the range are overwritten with the backfill. |
| C32_twice_refuted | RangeNodeSampler starts worker w at first + w * batch_size but a batch spans batch_size * data_parallel_num ids: workers overlap. |
| C34_edge_features_refuted | FileEdgeSampler.__iter__ does not pass drop_last when edge features are present, while __len__ uses it. |
| C34_file_refuted | len() of file samplers is the same for every data parallel index, the number of batches is not. |
| C55_count_refuted | CSVNodeSampler: cur_batch is never reset, so later epochs are empty; count divides by batch * data_parallel_num after rounding for batch only. |
| C35_garbage_refuted | graph_ops.py gen_skipgrams line 85 uses left_win_size for the right end: with a wider right window rows of np.empty stay uninitialised. |
| C35_fails_refuted | The same line with a narrower right window: IndexError. |
| C36_diagonal_refuted | sub_graph adds the identity to the adjacency matrix: a node with a self loop gets 2 on the diagonal, against 1 in the edge list form. |
| C45_again_refuted | _extract_server_index sorts options.worker_hosts in place: a second backend made from the same options looks up other workers; servers may start twice on one host and not on another. |
| C45_duplicate_refuted | Workers with the same address all start the same server. |
| C45_ddp_sizes_refuted | _try_ddp/_try_mpi divide the rank by the local size: hosts of different sizes get the same server index (a comment admits the limitation). |
| C46_listing_refuted | _AddressReader takes the addresses in glob order, the server index in the file only selects: server i may listen on the address of another host (always so from 11 servers on when files are listed by name). |
| C60_auto_servers_refuted | _get_server_index_client_rank reads line 8 of meta.json, which json.dumps writes as a single line: IndexError whenever the number of servers is left open. |
| C47_refuted | local.Client replaces the partition numbers by 0..n-1 (`for partition in range(len(partitions))`). |
| C48_edges_refuted | local.Client.sample_edges caches samplers by type only: a later call with another strategy gets the sampler of the first. |
| C48_long_refuted | Sampler caches are keyed by str(array), which numpy abbreviates above 1000 entries. |
| C43_escape_refuted | EdgeListDecoder looks at pairs of escapes only to find out whether a delimiter is escaped, it never replaces them: a text ending in one escape cannot be written at all, escaped escapes come back doubled. |
| C44_defaults_refuted | JsonDecoder sorts edges without created_at/removed_at as if these were 0, then hands out the times of the node: edges reach the writer in the wrong order and temporal counts are wrong. |
| C62_int_refuted | TsvDecoder raises KeyError for the documented feature type "i" (and "u"). |
| C62_label_refuted | TsvDecoder takes the documented edge_label column of a neighbor for its features and drops the features. |
| C62_no_type_refuted | TsvDecoder defaults a missing edge type to 0, but sorting the neighbors raises IndexError first. |
| C62_letter_refuted | TsvDecoder reads a feature with an unknown type letter with the type of the feature before it (UnboundLocalError for the first). |
| C40_release_refuted | MemoryStorage reads the file inside an assert: a build with NDEBUG (bazel -c opt) keeps zeros for every feature byte. |
| C40_end_refuted | DiskStorage throws for an empty read at the end of the data file (a node whose last feature has no bytes, stored last); memory storage returns nothing. |
| C40_overlap_refuted | HDFSStreamStorage moves the rest of its buffer with memcpy between overlapping ranges when a later read asks for more than 2048 and at most 4096 bytes. |
| C40_stale_refuted | HDFSStreamStorage: a read past the end after a partial fill reports success and returns stale or uninitialised bytes; disk storage returns 0 items. |
| C40_restart_refuted | HDFSStreamStorage::start resets the offsets but does not seek: a second pass continues where the first stopped. |
| C51_default_refuted | merger.h 319: the comparison `selector(engine) > overwrite_rate` overwrites when both are 0, so a server whose edges of a node have no weight can replace a sampled neighbor by the default. The generator `engine` of client.cc 718-769 is used by the sending thread (sub-seeds) and by callbacks without synchronisation, so results depend on timing and the program has a data race. |
| C52_nodes_refuted | client.cc 887-945 and sampler.cc 631-652: with a server without nodes of the requested types in the last position the conditional probability is 0 / 0, and NaN is passed to boost's binomial distribution (an assertion in debug builds). |
| C52_no_edges_refuted | client.cc 1005-1029: when no server has an element of the types, a request for edges divides 0 by 0 and passes NaN to boost's binomial distribution. |
| C27_reverse_refuted | py_graph.cc 945-949: the step back to the previous node is offered when that node has an edge to the current one, not when the current node has an edge to it. On a directed graph random walks go against the direction of edges. |
| C27_stuck_refuted | The same code: after such a step back, the edges to the node just left are skipped as the way to the parent, and the walk ends though the node has neighbors. |
| C27_loop_refuted | py_graph.cc 917-918: the start node counts as its own past, so its loops are skipped in the first step; a node with a loop only gives the default. |
| C27_weight_back_refuted | py_graph.cc 948: the way back has the weight of the edge from the previous node instead of the one to it; with different weights the law is not the one of node2vec. |
| C28_timestamps_refuted | py_graph.cc 1046-1100: lookup_neighbor_counts indexes the timestamps of the nodes asked for with the index of a neighbor; reads, and for new nodes writes, behind the end of the vector as soon as a request has more new neighbors than nodes. |
| C28_zero_refuted | py_graph.cc 1262: with count = 0 top() is called on an empty priority queue. |
| C49_race_refuted | A server that has seen no client file stops even if a client appears and connects before the stop event is set. |
| C49_stranded_refuted | The address exchange of SnarkDistributedBackend runs into this race: a worker that resets its server before a slower worker has created its client leaves that client waiting for a server file that never comes back. |
| C49_timeout_refuted | A server that times out waiting for clients stops under connected clients. |
| C49_retry_refuted | After a TimeoutError the client has deleted its lock file; asking for the client again connects without one, and servers stop under it. |
| C49_fork_lock_refuted | `SynchronizedClient` keeps a `threading.Lock`: a process forked while a thread waits for the servers inherits the taken lock, and its client blocks for ever in `client` and in `reset` (no timeout applies). |
| C49_fork_refuted | Connections of forked processes are not tracked: servers stop once the original process has reset its client. |
| C49_threads_refuted | Two threads ask for the client, the first times out while the second is still waiting: the reset of the first closes the connection the second got. |
| C49_stale_refuted | Server files of an earlier run make clients connect before any server is started; only servers and clients with the same index notice. |
| C49_early_reset_refuted | SynchronizedServer.reset before its process has created the lock file raises FileNotFoundError and leaves the file behind. |
| C49_crash_refuted | A client that dies blocks every server until its timeout. |
| C50_late_refuted | WaitForFutures throws at the first failed future while later requests are in flight; their replies and callbacks then access replies, output and other locals of the call that is gone (use after free). |
| C50_queues_refuted | num_threads + num_threads_per_cq - 1 wraps around for huge values: no completion queue, division by zero. |
| C30_raises_refuted | prefetch.py 186-206: a query that raises after the producer has put the count goes unnoticed: the second get of `__next__` returns the FetchDone object as a result and iteration stops normally. |
| C30_again_refuted | prefetch.py 188: with an empty sampler a second `__next__` after StopIteration blocks forever (`count > 0` fails). |
| C30_after_raise_refuted | prefetch.py 186-206: `__next__` after an exception may block forever. |
| C30_answers_refuted | prefetch.py 90: `max_parallel=0` (prefetch_worker_size) raises outside of the try statement of the producer, the consumer blocks forever. |
| C30_workers_refuted, C30_counts_refuted | prefetch.py 160-178: with `max_workers` > 1 every producer puts its own count; batches are lost or a FetchDone object is returned as data. |
| C29_empty_line_refuted | `TextFileIterator` (_adl_reader.py) keeps or drops an empty line depending on where the blocks and sub-blocks end: `a LF LF b LF` gives 3 lines with the default block size and 2 with blocks of 2 bytes. |
| C29_break_refuted, C29_separator_refuted | `TextFileIterator` cuts lines at every separator of `str.splitlines` (form feed, U+2028, ...), except in a last line without LF. The converter reads its JSON/TSV input through it, so a U+2028 inside a JSON string breaks the record. |
| C29_invalid_refuted | An invalid UTF-8 byte in a line in the middle of a block silently loses all whole lines of that sub-block: the exception stays in a future nobody reads. |
| C29_invalid_block_refuted, C29_threads_refuted | An invalid byte at a block border raises in the consumer or, between two threads, ends the reader thread so that `__next__` waits for ever; `thread_count=0` also waits for ever (only negative values are corrected). |
| C29_again_refuted, C29_border_refuted | `TextFileSplitIterator` does not restore total_read_length in `reset()`: the second pass is empty. A split inside a line gives two half lines. |
| C29_sampler_refuted | `TextFileSampler` without lines (or with drop_last and less than a batch) gives one batch of empty strings. |
| C63_same_edges_refuted | merger.h 208-228: among edges created at the same time the servers' answer depends on the placement of the partitions and differs from the local one. |
| C63_removed_edge_refuted | lastn_neighbors through servers returns an edge removed exactly at the queried time; neighbors does not. |
| C63_zero_count_refuted | lastn_neighbors with count = 0: a server reads the top of an empty queue. |
| C64_independent_refuted | client.cc 860-882: with replacement the client draws from the rows of the servers, so slots are not independent: two edges on a single server give equal slots with probability 3/4. |
| C64_null_times_refuted | client.cc 818, client.py 1092: return_edge_created_ts without timestamps fills a null pointer. |
| C66_missing_refuted | merger.h UpdateStringFeatureIndex on edges: as C26_missing_refuted, an older string is returned for every order of replies. |
| C66_sparse_refuted | merger.h UpdateSparseFeatureIndex on edges: the first reply wins whatever its age; a local graph returns the points of both values. |
| C67_cancel_refuted | server.cc ~GRPCServer: a request whose client cancels or dies no longer keeps m_server->Shutdown() waiting; the destructor then shuts the queue down while a thread may still be before `new ...CallData` or Finish of this request, which use the queue (failed assertion in gRPC). Witness: one thread, one cancelled request. Relies on the stated assumption that Shutdown does not wait for cancelled requests. |
| C67_status_refuted | call_data.cc 67, 238, 266, 294, 380, 438: EdgeFeatures, CreateSampler, SampleElements, GetMetadata, EdgeSparseFeatures and EdgeStringFeatures send Status::OK whatever the service returned, so a client takes an empty reply for an answer (the other nine send the status). E.g. Sample of EmptyGraphSampler (FAILED_PRECONDITION) and GetMetadata of EmptyGraphEngine (not overridden: UNIMPLEMENTED). |
| C67_no_threads_refuted | server.cc 158, 189: std::thread::hardware_concurrency() may return 0 ("not computable"); the server then has no queue and no thread and never answers. |
| C68_temporal_refuted | _downloader.py 43-97: edge_*.timestamp is not in the list of files to fetch, while partition.cc 339-351 opens it whenever the watermark is not negative: a temporal graph on a remote filesystem cannot be loaded by download (log_fatal). |
| C68_two_folders_refuted | _downloader.py 99-101: fs.get of files from several folders keeps the part of the path below the common prefix, so they land in subfolders of the temporary folder; all partitions point to the temporary folder itself, where the engine finds no neighbors_* file and silently loads an empty graph. Relies on the stated behaviour of fsspec get. |
| C68_last_local_refuted | _downloader.py 47, 101: `fs` after the loop is the filesystem of the last partition. If that is local, remote files are looked up locally (FileNotFoundError); also when every partition is local but the metadata are remote. |
| C68_edge_alias_refuted | sampler.cc 366-371: edge alias tables are opened in the folder of the metadata, node alias tables (225-230, 305-310) in the folder of the partition. Weighted edge sampling fails for partitions in other folders. |
| C68_stray_refuted | graph.cc 58-74: the extension is not checked. A file neighbors_0_0.bak loads partition 0 twice; neighbors_backup.index makes std::stoi throw. |
| C68_hdfs_refuted | graph.cc 79-86: on HDFS the prefix neighbors_ is searched in the whole path: below a folder such as /neighbors_graph/ every file is parsed from the folder name (std::stoi throws, or all partitions are missed). |
| C69_bad_line_refuted | converter/process.py 55-70, dispatcher.py 157-158 and 336-337: a worker that raises (decoder or writer error) dies without a message to q_out, join waits for its message without timeout and without looking at the process: a malformed line makes the conversion hang instead of fail (earlier, in dispatch, if more lines follow than pipe or queue hold). Proved for every schedule: C69_bad_line_never_returns. |
| C69_queue_threads_refuted | dispatcher.py 276-278, 387-388: QueueDispatcher with use_threads=True calls p.terminate() on threading.Thread, which has no such method: join raises AttributeError after the work is done, so meta.json is never written. |
| C70_stop_race_refuted | adl_uploader.py 126-131: stop puts a None only for threads that are alive when it looks at them, but any thread can take any None: a thread that ends between two of these looks leaves one None too few, so the join of the last thread, the process and close wait for ever, and the last file is never closed. |
| C70_empty_write_refuted | adl_uploader.py 208, 212-216: write("") puts b"", which the process takes for the end mark: it stops, chunks that follow in its queue are lost without an error (and when the queue is full write blocks for ever). |
| C70_full_refuted | adl_uploader.py 223-229: put(timeout=1) raises queue.Full, which is not a ValueError: writelines leaves with part of the lines written; the except branch cannot be reached because the queues are never closed. |
| C70_no_threads_refuted | adl_uploader.py: threads_per_process = 0 accepts all data and writes nothing. |
| C70_zero_lines_refuted | adl_uploader.py 224-243: max_lines_per_chunk = 0 loops for ever. |
| C71_size_wrap_refuted | client.py 558-560: feature sizes are multiplied with the item size as int32; 2^30 float32 values become 0 bytes and the client returns zeros. |
| C71_short_stamps_refuted | client.py 566-572, py_graph.cc: only the address of the timestamps is passed; fewer timestamps than nodes are read behind the end of the array. |
| C71_unaligned_string_refuted | client.py 177-189: a string answer whose byte count is no multiple of the item width raises inside a ctypes callback, where exceptions are dropped: no values, but dimensions that say otherwise. |
| C71_mixed_dimensions_refuted | client.py 155-160: coordinates of sparse values of different dimensions are regrouped by the dimension of the last one. |
| C71_lost_features_refuted | client.py 146-168: where reshape fails the exception is dropped, and that feature and all later ones are missing from the lists. |
| C71_narrow_coordinates_refuted | writers.py 693-730: coordinates that are not int64 are written as they are in memory; the reader takes coordinates out of the values. |
| C72_thousand_refuted | trainer.py 442-445, utils.py 145-148: checkpoint names sort as strings; the checkpoint of epoch 1000 sorts before that of epoch 999, rotation removes it as soon as it is saved and every new process starts from epoch 999. |
| C72_million_refuted | The same for step 1000000 of an epoch. |
| C72_last_epoch_refuted | trainer.py 190: epochs with `epoch % save_ckpt_by_epochs == 0` are saved, counted from 0; with 2 epochs and save_ckpt_by_epochs=2 the last weights are never saved. |
| C72_last_step_refuted | trainer.py 438-440: the checkpoint of the last step is left out as a duplicate of the epoch's, also when the epoch's is not written. |
| C72_zero_refuted | trainer.py 190: save_ckpt_by_epochs=0 raises ZeroDivisionError after the first epoch. |
| C72_schedule_refuted | trainer.py 425-435, 446-450: the learning rate schedule is not saved and starts again in a new process. |
| C72_optimizer_refuted | trainer.py 446-450: the optimizer is not saved. |
| C72_shuffled_refuted | trainer.py 178-180: a new process skips as many batches as were trained; in another order some are trained twice and some never. |
| C72_evaluation_refuted | trainer.py 319, 405: evaluation during training stops by the training's step; at the last step of a limited epoch it looks at one batch. |
| C72_samples_refuted | trainer.py 481-486: max_samples less than world_size * batch_size gives max_steps 0, which means no limit. |
| C73_late_leader_refuted | dist_sync.py 25-42: task 0 removes the file of a task that called sync before task 0 was created; then all tasks wait for ever. |
| C73_stale_refuted | dist_sync.py 44-57: with files of an earlier job a task passes before task 0 is created. |
| C73_same_tag_refuted | dist_sync.py 44-57: files are not removed after a sync, so a second sync with the same tag returns at once; trainer.py 133, 238, 337 and hooks.py 44, 65 always use the tags "session" and "final". |
| C74_samples_refuted | gnn_encoder_sage.py 99-103: the features of the neighbors sampled by the inner encoder are reshaped with num_sample of the outer one; if the numbers differ query raises or gives nodes the neighbors of other nodes. |
| C74_depth_refuted | gnn_encoder_sage.py 99-113: with three stacked encoders the neighbor features of the inner query are a dict, which has no reshape. |
| C74_empty_refuted | aggregators.py 33: an empty batch divides by zero. |
| C75_size_refuted | forest_fire.py 62-74: add_edge can add two nodes, so the sample can have sample_size + 1 nodes. |
| C75_endless_refuted | forest_fire.py 43-78: nodes enter the sample only with an edge, so the loop never ends when sample_size exceeds the number of nodes that have edges, also if the graph has sample_size nodes. |
| C75_empty_refuted | forest_fire.py 39: randint(0, -1) raises for a graph without nodes. |
| C75_clustering_refuted | metric.py 56: nodes[i] is the dict of attributes of node i, not the i-th node, and randint(0, n) includes n; average_clustering always raises. |
| C76_tf_first_batch_refuted | tf/common/dataset.py 68: next(iter(dataset.sampler)) takes the first batch away from a sampler that is its own iterator (CSVNodeSampler); it is never delivered, and all later epochs are empty. |
| C76_split_refuted | pytorch/common/dataset.py 75-81: data_parallel_index and data_parallel_num given by the user are overwritten with those of the DataLoader worker, so all ranks deliver the same data. |
| C76_csv_epochs_refuted | samplers.py 689: the parameter of CSVNodeSampler is named epoch, the attribute of the dataset epochs; the number of epochs of the dataset is ignored. |
| C76_len_refuted | graph_dataset.py 134-136 with pytorch/common/dataset.py 62-67: len() of a torch dataset raises AttributeError before the first iteration in the same process. |
| C76_empty_share_refuted | samplers.py 251: a rank whose files hold no numbers raises AssertionError. |
| C76_shuffle_refuted | samplers.py 270-275 with pytorch/common/dataset.py 75-81: with shuffle=True each DataLoader worker draws its own permutation, so an epoch repeats some numbers and loses others. |
| C77_encoder_refuted | pytorch/encoding/gnn_encoder_gat.py 42: F.softmax(..., dim=1) normalises every column; the weights with which a node sums its neighbors do not have the sum one. |
| C77_isolated_refuted | pytorch/nn/gat_conv.py 76-79 and tf/nn/gat_conv.py 84-86: in the dense version a node without neighbors attends to all nodes; the sparse version gives it the bias. |
| C77_weights_refuted | pytorch/nn/gat_conv.py 76, 97-102: with weights other than 0 and 1 the dense version attends to the heaviest edge only and the sparse version ignores them. |
| C77_han_shared_refuted | tf/encoders/han_encoder.py 104: [[[]]] * n repeats one list; all metapaths use the heads created first, the other heads are never used. |
| C77_han_layers_refuted | tf/encoders/han_encoder.py 104-108: more than one layer is an IndexError. |
| C79_weights_refuted | gcn_norm_adj of a sparse matrix drops the values of the entries and keeps only the product of the two scales, the dense branch multiplies by the value: the same weighted graph gives different layers (tf/nn/gcn_conv.py 20-25 and 33). |
| C79_act_refuted | GCNConv.call never applies `act` (stored in __init__, default relu); examples/tensorflow/gcn/gcn.py passes tf.nn.relu and relies on it, so its layers are linear. Dropout is applied without looking at `training` too. |
| C79_residual_refuted | LgclEncoder with residual add and equal widths adds `samples[0]` instead of `samples[hop]` (gnn_encoder_lgcl.py 107): with two layers the shapes do not fit, or with one node in the batch its row is added to those of its neighbors. |
| C79_concat_refuted | LgclEncoder squeezes the batch dimension away when the batch has one node, and torch.cat with the two-dimensional samples fails (gnn_encoder_lgcl.py 97, 109). |
| C79_lstm_refuted | LSTMAggregator takes the number of neighbors with features as the index of the last output: a neighbor whose features are zero in front of another one makes it return the output of an earlier step (tf/nn/sage_conv.py 187-200). |
| C79_bias_refuted | The TensorFlow aggregators read self.out_dim when bias is on, but the attribute is output_dim: AttributeError (tf/nn/sage_conv.py 39-49 and the same in the others). |
| C80_poly_refuted | get_polynomial_decay_schedule_with_warmup divides by num_training_steps - num_warmup_steps without max(1, ...): ZeroDivisionError at the last step when all steps are warm-up steps (pytorch/common/optimization.py 233). |
| C80_resume_refuted | Trainer._init_optimizer makes a new schedule with last_epoch=-1 after _load_checkpoint: a training that resumes goes through the warm-up again and does not reach the end of the schedule (pytorch/training/trainer.py 149, 425-435). |
| C80_cosine_end_refuted | The cosine schedule does not stop at num_training_steps: the rate rises again to the full one. |
| C81_matrix_refuted | MRR.compute accepts two-dimensional scores but takes the mean over all cells of ranks @ labels^T: for more than one row it mixes the ranks of one row with the labels of another (pytorch/common/metrics.py 70-74); the tests use a single row. |
| C81_per_step_refuted | With use_per_step_metrics the evaluation is the mean of the metrics of the batches, so rows of a smaller last batch weigh more; without it an empty dataset raises in torch.cat (C81_nothing). |
| C82_cut_refuted | Text features longer than max_sentence_characters are cut by bytes; if the cut goes through a UTF-8 character, decode raises UnicodeDecodeError and the whole batch is lost (feature_encoder.py 136-140). |
| C82_ids_refuted | With int64 features TwinBERTFeatureEncoder.transform takes every int64 array of the context for tokens: one-dimensional node ids raise IndexError or fail the assertion, a matrix of integer labels is cut into sequence and mask (feature_encoder.py 161-182). |
| C82_dimensions_refuted | Stored tokens of three dimensions are cut in the second instead of the last dimension and do not fit the new shape; one-dimensional byte arrays raise IndexError (feature_encoder.py 128-131, 172-182). |
| C82_tab_refuted | TriLetterTokenizer removes tabs, line ends and hyphens instead of taking them as separators: the words around them become one (tokenization.py 24, 40). |
| C82_no_tokens_refuted | An empty text has no BERT tokens and an all zero mask; WeightPooler then subtracts the same number from all scores and returns the mean over the padding (pooler.py 16-22). |
| C83_partitions_refuted | Cora and Citeseer with num_partitions > 1: the converter writes all partitions, but Dataset passes partitions=[0] to the client, the lines of the other partitions are missing (data_util.py 113, 150-155). |
| C83_no_training_refuted | A train_node_ratio that leaves no training node raises ValueError in _log_graph_statistic (min of an empty set) after all files were written; the test side is guarded, the training side is not (data_util.py 177-188). |
| C83_unknown_refuted | A citation of a paper that is not in the content file raises KeyError in cora.py and is skipped in citeseer.py (cora.py 99-101, citeseer.py 93-98). |
| C83_http_refuted | For an input_location with http the archive is stored as ./NAME.zip but input_location/NAME.zip is opened, a path that never is the stored one (data_util.py 128-130). |
| C84_positions_refuted | Reddit takes source and target of links, which are positions in the list of nodes, for numbers of nodes; if id_map does not number the nodes by position, links connect other nodes (reddit.py 108-110). |
| C84_no_label_refuted | A PPI node with an empty list of classes is written with an empty column; the decoder takes it for the end of the line and drops the features (ppi.py 177). |
| C84_onehot_refuted | _onehot of a negative label counts from the end instead of raising (reddit.py 15-20). |
| C85_students_refuted | data/mooc.py 144-147: when the student changes, collected features are not flushed: the last edge of every student but the last is given to the next student. |
| C85_order_refuted | data/mooc.py 159: the features so merged are not in time order; the reader's lower_bound then returns an older value. |
| C85_updates_refuted | data/mooc.py 153, 167: range(len(output_features) - 1) is always empty (one array), so the edges for later updates promised in the comment are never made. |
| C85_unit_refuted | data/mooc.py 56, 150: units are numbered from max_src, not max_src + 1: unit 0 has the node id of student 7046. |
| C85_archive_refuted | data/mooc.py 179-180: the download is stored as mooc.tar.gz and mooc.zip is opened. |
| C86_gap_refuted | data/citation.py 85: gaps in the test numbers are filled only when the name is citeseer; any other dataset with a gap raises IndexError. |
| C86_first_refuted | data/citation.py 88: the gap between the known nodes and the first test node is not filled; IndexError. |
| C86_small_refuted | data/citation.py 105: 500 validation nodes are assumed; every dataset with fewer rows raises IndexError. |
| C86_per_class_refuted | data/citation.py 164: the argument num_train_per_class is overwritten by 20. |
| C86_overlap_refuted | data/citation.py 103-109, 260-274: masks may overlap; a test node among the validation nodes is in no node file. |
| C86_split_refuted | data/citation.py 231-257: the code that splits and converts is a string literal, so split='random' gives the graph of the archive. |
| C87_short_refuted | graph/hdfs_wrap.cc 235-241: a part of the buffer may take at most two calls of hdfsRead; three short answers end the process although the file is complete. |
| C87_error_refuted | graph/hdfs_wrap.cc 235-238: -1 of the first call is used as an offset: the second call writes one byte before the buffer, and the data of a successful retry would be shifted by one byte. |
| C87_whole_partial | graph/hdfs_wrap.cc 272-274: the vector has size / sizeof(T) elements but receives size bytes; it is overrun when the size is not a multiple (latent: only one-byte elements are used). |
| C87_meta_size_refuted | py_graph.cc 1305: the client refuses meta.json above 100000 bytes, which the engine accepts. |
| C87_colon_refuted | graph/hdfs_wrap.cc 62-71: without a port, a colon in the path is taken for one: another host and port, or an exception of stoi. |
| C87_port_refuted | graph/hdfs_wrap.cc 70, 128: ports above 65535 wrap around silently. |
| C87_shared_meta_refuted | graph/metadata.cc 36: meta.json of a streamed graph is copied to one fixed file of the temporary directory; processes that start together read each other's metadata. |
| C88_table_refuted | arg_types.py 68-73: empty rows of a table of numbers vanish; the positions of the later rows change. |
| C88_words_refuted | arg_types.py 95-97: the empty text (the default of --ps_hosts and --worker_hosts) is a list of one empty word. |
| C88_shape_refuted | arg_types.py 7-20: the text of an array does not tell its shape. |
| C88_outside_refuted | snark/server.py 240-249: indices of a server group are not checked: an index equal to the number of servers loads partitions another server has, a negative one loads partition 4294967295, a negative number of servers starts a server without data. |
| C88_wrap_refuted | snark/server.py 122-125: partition numbers wrap around at 2^32 silently; `--partitions ""` starts a server without data. |
| C89_outside_refuted | tf/common/utils.py 157: a negative id that is not the invalid one is written and read into a row at the end of the table; an id beyond the table raises IndexError (with -1 kept as invalid_id a backfill of num_nodes + 1, as in examples/tensorflow/han, would). |
| C89_glob_refuted | tf/common/utils.py 149-150: files are read in the order of glob, which is arbitrary; stale files of an earlier run with more workers are read too. |
| C89_no_width_refuted | tf/common/utils.py 155: embeddings of width 0 are written as an empty text, which float() refuses. |
| C89_steps_refuted | tf/common/trainer.py 197-290: `steps` of inference is logged and then ignored; the TF2 trainer honours it. |
| C89_scalar_refuted | pytorch/modeling/base_model.py 73-82: squeeze(0) turns a batch with one id into a scalar, indexing it raises IndexError (a last batch with one node in a vector context). |
| C89_formats_refuted | base_model.py 79-87: ids beyond the embeddings are dropped silently; the files of the torch trainer cannot be read by load_embeddings. |
| C90_uneven_refuted | trainer_ddp.py: no join context; ranks with different numbers of batches (no --max_samples, or fewer batches than the limit) wait for each other for ever; before that, batches of different epochs are averaged. |
| C90_checkpoint_refuted | trainer.py 457-479: every rank takes epoch and step from the newest checkpoint in its own model_dir but only rank 0 saves; without a shared directory a resumed job hangs. |
| C90_eval_refuted | trainer_ddp.py 31-40 with broadcast_buffers: evaluation data of different lengths hang a model with buffers (e.g. batch normalisation). |
| C90_sizes_refuted | trainer_ddp.py: gradients of ranks are averaged without the sizes of their batches; examples in a short last batch count more. |
| C90_horovod_clip_refuted | trainer.py 281-285 under trainer_hvd.py: without half precision the gradients are clipped before optimizer.step has synchronised them; the update uses the unreduced race: --clip_grad has no effect or clips each rank before averaging. The overrides for half precision synchronise first. |
| C90_metric_refuted | trainer_ddp.py 97-101, trainer_hvd.py 27-28: metric and loss of ranks are averaged without their numbers of batches; a rank without data contributes 0. |
| C90_loss_refuted | trainer.py 181-184: train_losses is emptied before every batch; Training/Loss is the loss of one batch, not the mean since the last report. |
| C91_weights_refuted | snark/local.py 148-150: the weights of the strategies random and randomwithoutreplacement are np.empty: uninitialised memory. |
| C91_default_type_refuted | snark/local.py 117-126: byweight does not pass default_edge_type on; missing edges have type -1. |
| C91_out_strategies_refuted | graph_ops.py 39-50: sample_out_edges raises ValueError with ppr-go (types of shape [0]), TypeError with lastn (no timestamps) and NotImplementedError with topk, which its documentation lists. |
| C91_no_edge_refuted | graph_ops.py 39-50: a node with fewer neighbors than count gets out edges to node -1 of type -1. |
| C91_tuple_refuted | snark/local.py 127-187: without return_edge_created_ts the tuple has four elements, for lastn three; the interface (_base.py 109) says three. |
| C91_matrix_refuted | snark/client.py 979-999: arrays have len(nodes) rows but the engine gets nodes.size nodes: a two dimensional array of nodes writes beyond their end (byweight, random, ppr-go, lastn, random_walk, neighbors); timestamps fewer than the nodes are read beyond their end. |
| C91_metapath_refuted | snark/local.py 211-239, client.py 1286: the metapath of a random walk, 'types of edges to sample on every step', becomes a sorted set; every step uses all its types. |
| C91_scalar_refuted | snark/local.py 54-59, 299-311: a numpy scalar as type, for instance an element of an array of types, raises. |
| C92_max_refuted | snark/client.py 1430: wait_exponential gets max=max_attempts instead of max_backoff; the default policy waits 2, 4, 5, 5 seconds instead of 2, 4, 8, 10. |
| C92_multiplier_refuted | snark/client.py 1427-1430: backoffMultiplier is used as factor of 2 ** n, not as the base; the first wait is the multiplier when it is larger than initialBackoff. |
| C92_duration_refuted | snark/client.py 53-58: strptime('%Ss') reads only 0s to 59s; with fractions ('0.5s', usual in gRPC) or longer times the whole policy is replaced by the default, also maxAttempts. |
| C92_fraction_refuted | snark/client.py 59-61: int() cuts a multiplier such as 1.5 (usual in gRPC) to 1. |
| C92_stale_refuted | snark/client.py 983-1021: all attempts write to the same arrays; a cell that only a failed attempt wrote would be returned (needs an attempt that writes other cells, for instance after a server has lost a partition). |
| C93_repeated_source_refuted | examples/pytorch/tgn.py 116-120: np.unique keeps the time of the first row of a source; a later row of the batch with the same source is predicted without the interactions in between. |
| C93_order_refuted | examples/pytorch/tgn.py 116-120: in a batch that is not in order of time a row is predicted from later interactions, even from itself. |
| C93_future_refuted | examples/pytorch/tgn.py 117-120: a destination that is the source of a later row of the batch is embedded with interactions after the prediction (not in bipartite graphs). |
| C93_fed_refuted | examples/pytorch/tgn.py 172-177: update_state gets the sampled neighbors instead of the interactions of the batch: the memory gets an interaction once per later batch with its source, and never if there is none. |
| C93_new_students_refuted | examples/pytorch/tgn.py 228-229: test does not skip batches without neighbors as train does: torch.cat of None raises. |
| C93_skipped_refuted | examples/pytorch/tgn.py 196-212: skipped batches count in the number of examples, so the loss of an epoch is too small; a last smaller batch counts as a whole one. |
| C93_unsorted_refuted | examples/pytorch/tgn.py 95-97: rows are split by position after counting times, so a file that is not in order of time has later rows in training than in test. |
| C94_padding_refuted | examples/pytorch/hetgnn/model.py 214-232: lists of triples are padded with zeros to the longest and the padding counts in the mean of the loss (and in the metric, as ties). |
| C94_ranking_refuted | examples/pytorch/hetgnn/model.py 196-204: the scores that the metric ranks contain the negative score with its sign changed, so the order of positive and negative is not that of their similarities. |
| C94_types_refuted | examples/pytorch/hetgnn/sampler.py 64-92: types of edges are taken for types of nodes; in a graph where they differ, triples are in the wrong list and negatives have the wrong type (the bundled MockGraph returns node types). |
| C94_files_refuted | examples/pytorch/hetgnn/sampler.py 53-54: next(iter(sampler)) starts a new iterator for each batch: with sample files only the first batch of nodes is ever used. |
| C94_inference_refuted | examples/pytorch/hetgnn/model.py 299: the type of the first row is used for the whole batch. |
| C95_tuple_refuted | pytorch/common/utils.py 68-78: to_cuda assigns to items of a tuple, which raises TypeError for a tuple that holds a tensor. |
| C95_plain_refuted | pytorch/common/utils.py 59-66: plain data in a dictionary raise, the same data in a list are kept. |
| C95_tensor_refuted | pytorch/common/utils.py 44-79: a batch that is a tensor stays on the CPU. |
| C95_terms_refuted | pytorch/encoding/feature_encoder.py 224: output_encoded_layer is not handed to nested dictionaries. |
| C95_mask_refuted | pytorch/encoding/feature_encoder.py 303-312: the term tensors of the context are those of the last type of the first list, its mask is that of the first type. |
| C95_positions_refuted | pytorch/encoding/feature_encoder.py 287-306: types that are no list are skipped, so positions in embs_list differ from those of the types; without term tensors if it is the first. |
| C95_empty_refuted | pytorch/encoding/feature_encoder.py 303: a first list without types raises UnboundLocalError. |
| C95_dim_refuted | pytorch/encoding/feature_encoder.py 72, 251: embed_dim of the encoder of several types is the downscale option even when there is no downscaling (a value that is not positive). |
| C96_ids_refuted | examples/pytorch/pyg_interface.py 70-74 (and 146-153): torch.Tensor(ids).long() goes through binary32: ids above 2^24 with more than 24 significant bits become other ids. |
| C96_second_hop_refuted | examples/pytorch/pyg_interface.py 57-75: the graph handed over has only the edges from the nodes of the sample file, so a second hop from other nodes finds nothing. |
| C96_test_refuted | examples/pytorch/pyg_interface.py 125-135: test returns after the first batch, and takes it from the loader of training; the test loader is never used. |
| C96_squeeze_refuted | examples/pytorch/pyg_interface.py 36: squeeze drops the batch dimension for a single node. |
| C97_shared_refuted | examples/tensorflow/sage/sage_linkprediction.py 176-179, sage.py 196-197: the row of missing nodes is all_node_count, so with ids from 1 the last node trains the row of the missing ones. |
| C97_default_refuted | examples/tensorflow/sage/sage.py 144,168, sage_linkprediction.py 94,119, sage_unsupervised.py 132: the default identity_embed_shape=[] is not None, so the constructor raises IndexError. |
| C97_steps | examples/tensorflow/sage/sage_linkprediction.py 167-168, 219-229: after set_inference_node test_step unpacks two values into three; before it predict_step has no node_ids. |
| C97_isolated_refuted | examples/tensorflow/sage/sage_unsupervised.py 55-61: a node without neighbors gets -1 as its positive and is drawn to the row of missing nodes. |
| C98_loader_refuted | examples/pytorch/hetgnn/graph.py 203-216: with one node more than full batches the pass ends with IndexError, as the slice [start:n-1] is empty. |
| C98_last_refuted | examples/pytorch/hetgnn/graph.py 208-211: the last node of the file is in no batch. |
| C98_features_refuted | examples/pytorch/hetgnn/graph.py 148: key > len(rows) should be >=; the first id after the rows raises IndexError. |
| C98_ranges_refuted | examples/pytorch/hetgnn/graph.py 32-36: ids are drawn from fixed ranges (2000, 2000, 10): beyond small graphs, and never venues 10 to 17. |
| C98_interval_refuted | examples/pytorch/hetgnn/graph.py 50-58: np.empty intervals are read for nodes without a list of neighbors. |
| C98_untyped_refuted | examples/pytorch/hetgnn/graph.py 96-99, 143: an id below 1000000 has no type; index -1 reads it as a node of the last type. |
| C98_ids_refuted | examples/pytorch/hetgnn/graph.py 77-83: ids of a type from 1000000 on are ids of the next type. |
| C98_leak_refuted | examples/pytorch/hetgnn/main.py 270-276: the train file may label 0 what the test file labels 1, and an author with themselves. |
| C98_test_refuted | examples/pytorch/hetgnn/main.py 279-290: a pair of the test papers may be labelled 0 in the test file when one author has no earlier collaborator. |
| C98_ends_refuted | examples/pytorch/hetgnn/main.py 272-274: drawing never ends for an author related to all authors. |
| C98_columns_refuted | examples/pytorch/hetgnn/evaluation.py 28, 40, 60, 74: [:, k:-1] leaves out the last feature. |
| C98_f1_refuted | examples/pytorch/hetgnn/evaluation.py 114-116: ZeroDivisionError when no positive is predicted right. |
| C98_venue_refuted | examples/pytorch/hetgnn/main.py 385: a paper without a venue counts for venue 0. |
| C99_none_refuted | pytorch/encoding/twinbert/deepspeed/nvidia_modeling.py 944: a text without visible tokens attends to all of its padding. |
| C99_mask_refuted | pytorch/encoding/twinbert/deepspeed/nvidia_modeling.py 423, 944: the mask is a finite -10000, a score above it shows a padded token. |
| C99_layers_refuted | pytorch/encoding/twinbert/deepspeed/nvidia_modeling.py 562-580: with checkpoint_activations only the last layer is returned although output_all_encoded_layers is true. |
| C99_empty_refuted | pytorch/encoding/twinbert/deepspeed/nvidia_modeling.py 953: without layers output_all_encoded_layers=True raises IndexError and False does not. |
| C99_focal_refuted | pytorch/encoding/twinbert/deepspeed/loss.py 15, 50-55: alpha is documented as a vector, then it is multiplied with every element of the batch (N by N). |
| C100_collision_refuted | pytorch/encoding/twinbert/encoder.py 161: the prefix is looked for anywhere in a name, so that of two modules whose names hold it the last one is loaded silently. |
| C100_poolers_refuted | pytorch/encoding/twinbert/encoder.py 145, 173: only poolers.0 is copied or kept, a model with pooler_count > 1 cannot be started from another checkpoint. |
| C100_downscale_refuted | pytorch/encoding/twinbert/encoder.py 131-152: a checkpoint with a down scaling layer cannot be loaded into a model without one (strict names). |
| C100_bar_refuted | pytorch/encoding/twinbert/encoder.py 141-158: a | in init_ckpt_prefix is a separator and the load ends with IndexError. |
| C101_order_refuted | pytorch/encoding/twinbert/deepspeed/convert_bert_ckpt_to_deepspeed.py 254-268: query, key and value wait in one dict for all layers, entries in another order are merged across layers without an error. |
| C101_mixed_refuted | pytorch/encoding/twinbert/deepspeed/convert_bert_ckpt_to_deepspeed.py 254-268: parts left by an incomplete layer are merged into the next layer. |
| C101_pooler_refuted | pytorch/encoding/twinbert/deepspeed/convert_bert_ckpt_to_deepspeed.py 195-196, 302-305: the converters look for dense_act, which neither nvidia_modeling.py nor nvidia_modeling_no_apex.py has: AttributeError for every checkpoint with a pooler. |
| C101_gamma_refuted | pytorch/encoding/twinbert/deepspeed/convert_bert_ckpt_to_deepspeed.py 200-205: gamma and beta of older checkpoints are skipped, the normalisation keeps its initial values. |
| C101_vocabulary_refuted | pytorch/encoding/twinbert/deepspeed/convert_bert_ckpt_to_deepspeed.py 271-274: only word_embeddings is padded to the vocabulary of the model, cls.predictions.bias is not and its shape is refused. |
| C102_leftover_refuted | examples/tensorflow/han/han.py 35, tf/encoders/han_encoder.py 101: edge types that do not fill a metapath are dropped without an error. |
| C102_none_refuted | examples/tensorflow/han/han.py 35, 75-90: fewer edge types than hops give arrays of rank one where rank four is announced, and an encoder that fails. |
| C102_empty_refuted | examples/tensorflow/han/han.py 34: the assertion compares a list with zero and never fails; the default feature_dim of main.py cannot be reshaped. |
| C102_hops_refuted | tf/encoders/han_encoder.py 122: rows are regrouped by the sum of the fanouts plus one where there are their product plus one; with several hops most batches fail. |
| C102_default_refuted | examples/tensorflow/han/main.py: the default head_num of two layers cannot be created. |
| C102_eager_refuted | tf/encoders/han_encoder.py 26: input_shape[2].value, with TensorFlow 2 behavior no batch can be encoded. |
| C102_test_refuted | examples/tensorflow/han/han.py 205-207: test_step unpacks three values from a call that answers the embedding only. |
| C102_f1_refuted | examples/tensorflow/han/han.py 160-172: F1 is a running value over all batches and below one for perfect predictions. |
| C102_labels_refuted | examples/tensorflow/han/han.py 41-42: without labels the query answers memory that is not initialised. |
| C103_telemetry_refuted | logging_utils.py 124-136: setup does not take the lock and writes _init last; a get_logger in between configures again and turns telemetry off. |
| C103_handlers_refuted | logging_utils.py 124-136: two setups at the same time leave two telemetry handlers, records are sent twice. |
| C103_class_refuted | logging_utils.py 127: with another class of loggers nothing is configured and telemetry stays off without a word. |
| C104_interrupted_refuted | deepspeed/file_utils.py 231-232: the copy into the cache is not atomic; after an interruption the beginning of the file is answered by all later calls. |
| C104_concurrent_refuted | deepspeed/file_utils.py 211-232: a second process answers a file that is still written, or empties one that was answered. |
| C104_status_refuted | deepspeed/file_utils.py 171-178: the status of the download is not looked at, an error page becomes the file. |
| C104_stale_refuted | deepspeed/file_utils.py 204-211: without an etag the first version is answered forever. |
| C104_version_refuted | deepspeed/file_utils.py 204, 222: a change between the two requests files the new bytes under the old etag. |
| C104_scheme_refuted | deepspeed/file_utils.py 106, 196: S3://b/k passes cached_path but is not treated as S3. |
| C104_key_refuted | deepspeed/file_utils.py 124-132: a key with # or ? is cut, another object is downloaded. |
| C104_code_refuted | deepspeed/file_utils.py 145: int() of a code that is no number hides the error of S3. |
| C105_order_refuted | convert_bert_ckpt_to_deepspeed.py 145-163: the three parts of the attention are not kept per layer, another order of variables mixes layers without an error. |
| C105_asked_refuted | convert_bert_ckpt_to_deepspeed.py 71-80: a missing parameter of a module that exists raises AttributeError, a missing module is skipped. |
| C105_pooler_refuted | convert_bert_ckpt_to_deepspeed.py 86-87: the pooler needs dense_act, the models of the repository call it dense: no TensorFlow checkpoint with a pooler can be converted. |
| C105_vocabulary_refuted | convert_bert_ckpt_to_deepspeed.py 165-167: cls/predictions/output_bias is not padded with the words, AssertionError. |
| C106_names_refuted | migrate/0_1_57.py 24: parts of other names are renamed (budget_feature_type). |
| C106_module_refuted | migrate/0_1_56.py 21-23: ge.FeatureType.FLOAT becomes ge.np.float32. |
| C106_numpy_refuted | migrate/0_1_56.py 21-36: numpy is only imported where the class was imported by name; otherwise np is not defined. |
| C106_temp_refuted | migrate/0_1_56.py 36: names of the script that contain dtype_temp are broken. |
| C106_lines_refuted | migrate/0_1_5x.py 18-19, 38-39: every script is written again, with ends of lines of Unix. |
| C106_order_refuted | migrate/0_1_5x.py: the first script with an error, or a directory named *.py, stops the run; what is migrated depends on the order of the directory. |
| C107_seconds_refuted | tf2_trainer.py 73: the first line divides the time of one step by log_save_steps. |
| C107_summary_refuted | tf2_horovod_trainer.py 79-80: the step of a summary is the batch of the epoch; every epoch writes the same steps again. |
| C107_vars_refuted | tf2_trainer.py 65-67, 329-330: evaluation logs the variables of the model twice. |
| C107_chief_refuted | tf2_trainer.py 98-102: the type of the task is not read; chief 0 and worker 0 write the same files, and the size leaves out the chief. |
| C107_checkpoint_refuted | tf2_trainer.py 245: every worker saves the checkpoint into the same file; _save_checkpoint, with the index and --checkpoint_save_secs, is not called. |
| C107_config_refuted | tf2_horovod_trainer.py 36: TF_CONFIG without workers raises KeyError though nothing of it is used. |
| C107_seed_refuted | tf2_trainer.py 130: seed 0 is not set. |
| C107_prefix_refuted | tf2_trainer.py 415-418: an absolute prefix leaves the model directory. |
| C108_finish_refuted | examples/pytorch/aml.py 42-44, 69-81: wait_set asks for locks equal to 1, release_lock sets 2; a worker that leaves before another has polled blocks both for ever. |
| C108_once_refuted | examples/pytorch/aml.py 95: Server(address, dir, rank, 1) loads all partitions from the rank on; partitions are loaded by several servers. |
| C108_port_refuted | examples/pytorch/aml.py 93: rank 10 gets port 99910. |
| C108_reload_refuted | snark/distributed.py 49-56: __reduce__ drops grpc_options, num_threads and num_cq_per_thread. |
| C109_run_dist_refuted | pytorch/training/factory.py 87-137: closing(backend) surrounds only trainer.run; a model, dataset or optimizer that raises leaves the backend open. |
| C109_multinode_refuted | tf/common/args.py 28, trainer_factory.py 47-66: --trainer multinode without --eager fails the assertion of PSTrainer. |
| C109_eager_ps_refuted | tf/common/trainer_factory.py 69-102: --eager with the default trainer PS makes an EagerTrainer, --ps_hosts, --worker_hosts and --task_index are not used. |
| C109_prefetch_refuted | pytorch/training/factory.py 119-134: 0 workers with --prefetch_factor other than 2 is rejected by DataLoader of torch 1.13.1. |
| C109_eval_workers_refuted | pytorch/training/factory.py 108-112: the loader for evaluation uses data_parallel_num processes for samplers of the graph engine and on Windows, where the loader for training uses none. |
| C109_steps_refuted | examples/tensorflow/sage/main.py 152: --steps_per_epoch is not used when the sampler knows its length. |
| C109_epochs_refuted | examples/tensorflow/sage/main.py 134-152: more steps than batches make epochs run into the next pass, training ends with fewer epochs. |
| C109_unsup_inference_refuted | examples/tensorflow/sage/main_unsup.py 201: run_inference drops the last incomplete batch, its nodes get no embeddings. |
| C110_names_refuted | tf/layers/base.py 39-43: a name given by hand may be the name of an automatic layer, its variables raise in graph mode (C110_variables_clash). |
| C110_twice_refuted | tf/layers/base.py 24-29: the counter is global to the process, a model made twice has other names of variables than its checkpoint. |
| C110_dense_vector_refuted | tf/layers/base.py 133-137: an input of rank 1 goes to tf.matmul, which needs rank 2. |
| C110_embedding_refuted | tf/layers/base.py 174-180: two unknown axes become two -1 in tf.reshape, which raises for all inputs. |
| C110_embedding_empty_refuted | tf/layers/base.py 174-180: an axis of size 0 next to an unknown axis cannot be inferred. |
| C110_sparse_refuted | tf/layers/base.py 202-209: embedding_lookup_sparse returns rows up to the last row with ids; nodes without ids at the end of a batch have none. |
| C111_rows_refuted | examples/tensorflow gcn.py and gat.py predict_step: rows come in the order of ids and a node that is twice in a batch has one row. |
| C111_full_graph_refuted | examples/pytorch/gcn.py 161-170: an edge to an id outside of range(NUM_NODES) adds rows that masks do not have. |
| C111_ranks_refuted | examples/pytorch/gat.py 185-199: every rank reads all nodes, an epoch has each of them once per rank. |
| C111_dropped_refuted | examples/pytorch/gat.py 66-70: last nodes that do not fill a batch are dropped, also in evaluation. |
| C111_evaluated_refuted | examples/pytorch/gat.py 202: next(iter(...)) evaluates the first batch only, and raises StopIteration if the batch is larger than the file. |
| C111_shapes_refuted | examples/pytorch/gat.py 139-143: torch.squeeze also removes axes of nodes, features or edges of size 1. |
| C111_accuracy_refuted | examples/pytorch/gcn.py 178-188: model.eval() is called after the forward pass, accuracy comes from an output with dropout and of older parameters. |
| C112_direction_refuted | examples/pytorch/sage.py 119-126 and 148-159: training sends messages from neighbours to nodes, evaluation from nodes to neighbours; they agree only when links go both ways. |
| C112_last_refuted | examples/pytorch/sage.py 95: the upper bound of randint is exclusive, the last node is never in a negative pair; one node raises (C112_one_node). |
| C112_batch_refuted | examples/pytorch/sage.py 33: batch_size is 256 whatever the argument. |
| C112_label_refuted | examples/pytorch/sage.py 91-101: negatives are not compared with edges, a pair may have both labels in a batch. |
| C112_default_refuted | examples/pytorch/sage.py 43-82: nodes without neighbours get an edge to the default node -1, which is a row of the sub-graph. |
| C112_fanout_refuted | examples/pytorch/sage.py 43-82: with a first fanout of 0 there are no rows for seeds. |
| C113_enabled_refuted | backends/snark/client.py 113-135, snark/distributed.py 88-94: a backend passes ssl_cert but no ssl_key to the servers it starts, so they never use TLS (C113_started_plain) and clients with a certificate cannot connect. |
| C113_disabled_refuted | backends/snark/client.py 128-135: enable_ssl is read with skip_ge_start only; otherwise a certificate alone switches TLS on in the client. |
| C113_arguments_refuted | backends/snark/client.py 128-135: grpc_options, num_threads and num_cq_per_thread are dropped unless skip_ge_start is set. |
| C113_defaults_refuted | backends/options.py 37-38, utils.py 76-87: server_idx and client_rank are -1 in the class and None on the command line; -1 counts as an explicit index, so no rank is looked for. |
| C113_converter_refuted | converter/options.py 33, utils.py 50-56: the default converter is skip in the class and local on the command line. |
| C113_names_refuted | graph_dataset.py 146-157: the name of a backend is accepted, the name of a type of graph leaves backend_class unbound. |
| C113_custom_refuted | graph_dataset.py 144-159: the name custom fails the assertion, only the member of the enum works. |
| C113_no_backend_refuted | backends/options.py 27: the default backend None is no BackendType, create_backend raises ValueError. |
