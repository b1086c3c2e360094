{"id": "C01", "title": "Converted graph answers neighbor queries exactly", "statement": "After converting a record stream and loading the binaries, neighbors(node, types) returns exactly the edges the input listed for that node whose type is requested, each once, with the destination, type and weight that were written, ordered by type and then input order; a node absent from the input gets an empty answer.", "quantifier": "every well formed record stream (any number of nodes, edges, types, features), every node id, every set of edge types", "why_tests_cant": "Round trip over all graph shapes and file offsets; a test fixes one graph, off by one watermarks between consecutive nodes only show on particular shapes.", "anchors": ["src/python/deepgnn/graph_engine/snark/converter/writers.py: BinaryWriter.add, NodeWriter, EdgeWriter", "src/cc/lib/graph/partition.cc: ReadNodeMap, ReadNeighborsIndex, ReadEdgeIndex, NeighborIndexIterator, FullNeighbor", "src/cc/lib/graph/graph.cc: Graph, ReadNodeMap, FullNeighbor"]}
{"id": "C02", "title": "Converted graph answers node type queries exactly", "statement": "node_types(n) returns the type the input gave to n wherever n was stored, and the default for a node absent from the graph; a node that only occurs as an edge source without a node record reports -1.", "quantifier": "every record stream, every assignment of records to partitions, every node id", "why_tests_cant": "Needs all interleavings of placeholder and real records over partitions.", "anchors": ["src/python/deepgnn/graph_engine/snark/converter/writers.py: BinaryWriter.add, NodeWriter.add", "src/cc/lib/graph/graph.cc: Graph::GetNodeType, ReadNodeMap", "src/cc/lib/graph/partition.cc: GetNodeType"]}
{"id": "C03", "title": "Dense node features are returned byte for byte", "statement": "node_features(n, [(f, size)]) returns the first size bytes of the value written for feature f of node n, padded with zero bytes when the stored value is shorter, and all zeros when the node or feature was not given.", "quantifier": "every record stream, every node, every list of (feature id, byte size)", "why_tests_cant": "Offsets of every feature depend on the sizes of all previous ones; tests use a few fixed sizes.", "anchors": ["src/python/deepgnn/graph_engine/snark/converter/writers.py: NodeFeatureWriter.add/close, convert_features", "src/cc/lib/graph/partition.cc: ReadNodeIndex, ReadNodeFeaturesIndex, GetNodeFeature", "src/cc/lib/graph/graph.cc: Graph::GetNodeFeature"]}
{"id": "C04", "title": "Edge features are returned byte for byte", "statement": "edge_features((src,dst,type),[(f,size)]) returns the first size bytes of the value written for feature f of the first such edge, zero padded, and zeros when the edge does not exist, whatever the out degree of the source.", "quantifier": "every record stream, every edge triple, every list of (feature id, byte size), both the short (linear) and long (binary search) lookup", "why_tests_cant": "The lookup changes algorithm with the degree and relies on destination order only sometimes; fixed tests touch few degrees and orders.", "anchors": ["src/python/deepgnn/graph_engine/snark/converter/writers.py: EdgeWriter.add/close, EdgeFeatureWriter", "src/cc/lib/graph/partition.cc: EdgeFeatureOffset, GetEdgeFeature"]}
{"id": "C05", "title": "neighbor_count equals the number of neighbors returned", "statement": "For a non temporal query neighbor_counts(nodes, types)[i] is the number of entries neighbors(nodes, types) attributes to node i.", "quantifier": "every graph, every number of partitions, every node list, every type set", "why_tests_cant": "Two separately coded query paths must agree on every input.", "anchors": ["src/cc/lib/graph/partition.cc: NeighborCount, FullNeighbor, NeighborIndexIterator", "src/cc/lib/graph/graph.cc: Graph::NeighborCount, Graph::FullNeighbor"]}
{"id": "C06", "title": "Temporal neighbors are exactly the edges alive at the timestamp", "statement": "neighbors(node, types, timestamps=t) returns exactly the edges with created_at <= t that are not removed at t (removed_at > t or never removed), in stored order.", "quantifier": "every graph with edge timestamps, every timestamp, every type set", "why_tests_cant": "Ranges over all timestamp values and boundary equalities.", "anchors": ["src/cc/lib/graph/partition.cc: FullNeighbor, ReadEdgeTimestamps", "src/python/deepgnn/graph_engine/snark/converter/writers.py: EdgeWriter.add"]}
{"id": "C07", "title": "Temporal neighbor_count agrees with temporal neighbors", "statement": "For every timestamp neighbor_counts(nodes, types, timestamps) equals the number of edges neighbors(nodes, types, timestamps) returns.", "quantifier": "every list of edge lifetimes the converter accepts, every timestamp", "why_tests_cant": "Counting uses binary searches whose correctness depends on an order of removal times that the converter does not enforce.", "anchors": ["src/cc/lib/graph/partition.cc: NeighborCount, find_start, find_last, FullNeighbor"]}
{"id": "C08", "title": "Order and repetition of requested edge types do not matter", "statement": "Neighbor queries give the same answer for any permutation or repetition of the requested edge type list.", "quantifier": "every list of edge types, every node", "why_tests_cant": "All permutations and repetitions of all lists.", "anchors": ["src/python/deepgnn/graph_engine/snark/client.py: _make_sorted_list, MemoryGraph.neighbors", "src/cc/lib/graph/partition.cc: NeighborIndexIterator", "src/cc/lib/graph/graph.cc: check_sorted_unique_types"]}
{"id": "C09", "title": "Temporal feature lookup returns the latest value not newer than the timestamp", "statement": "For a feature given as a list of (created_at, value) the value read back at time t is the bytes of the entry with the greatest created_at <= t, and nothing (zeros) when every entry is newer.", "quantifier": "every list of (created_at, bytes), every query time", "why_tests_cant": "Composition of a serializer with offsets and a binary search over all histories.", "anchors": ["src/python/deepgnn/graph_engine/snark/decoders.py: JsonDecoder._serialize_temporal_features", "src/cc/lib/graph/partition.cc: deserialize_temporal_feature"]}
{"id": "C10", "title": "Last-N neighbors are the N most recently created edges", "statement": "lastn_neighbors(node, types, t, count) returns min(count, number alive) distinct edges alive at t, no edge left out was created later than one returned, newest first or in a fixed order, the rest defaults.", "quantifier": "every edge list, timestamp and count", "why_tests_cant": "Heap maintenance over all arrival orders, ties included.", "anchors": ["src/cc/lib/graph/partition.cc: LastNCreatedNeighbors", "src/cc/lib/graph/graph.cc: Graph::LastNCreated"]}
{"id": "C11", "title": "A node spread over several partitions is found in all of them", "statement": "After loading any list of partitions, looking up a node visits exactly the partitions that contain it, once each, in load order, with the right internal row.", "quantifier": "every list of partitions, every distribution and repetition of node ids", "why_tests_cant": "The index is rebuilt by copy-append on every repetition; all histories of insertions matter.", "anchors": ["src/cc/lib/graph/graph.cc: Graph::Graph, Graph::ReadNodeMap", "src/cc/lib/distributed/graph_engine.cc: GraphEngineServiceImpl::ReadNodeMap"]}
{"id": "C12", "title": "Metadata counts match the input for any worker count", "statement": "node_count, edge_count, per type counts and per type weights in meta.json equal the totals over the input records, for any number of partitions and any order in which the workers report.", "quantifier": "every record stream, every partition count, every completion order of the workers", "why_tests_cant": "Completion order is nondeterministic and tests see one of them.", "anchors": ["src/python/deepgnn/graph_engine/snark/dispatcher.py: PipeDispatcher.dispatch/join", "src/python/deepgnn/graph_engine/snark/convert.py: MultiWorkersConverter.convert", "src/python/deepgnn/graph_engine/snark/converter/writers.py: BinaryWriter.add"]}
{"id": "C13", "title": "Alias tables reproduce the weights", "statement": "Sampling from the alias table built for weights w picks element i with probability exactly w_i / sum(w) (in exact arithmetic).", "quantifier": "every nonempty list of non negative weights with positive sum", "why_tests_cant": "A distributional statement about all inputs; statistical tests only bound a few.", "anchors": ["src/python/deepgnn/graph_engine/snark/alias.py: Vose", "src/python/deepgnn/graph_engine/snark/converter/writers.py: NodeAliasWriter.close, EdgeAliasWriter.close", "src/cc/lib/graph/sampler.cc: WeightedNodeSamplerPartition::Sample"]}
{"id": "C14", "title": "Sampled neighbors are real neighbors", "statement": "Every neighbor returned by weighted or uniform neighbor sampling is an edge of the node with a requested type and is reported with its weight and type; a node with no such edge gets exactly the default values.", "quantifier": "every graph, node, type set, count and every outcome of the random generator", "why_tests_cant": "Must hold for every random stream.", "anchors": ["src/cc/lib/graph/partition.cc: SampleNeighbor, UniformSampleNeighborWithReplacement, UniformSampleNeighborWithoutReplacement", "src/cc/lib/graph/graph.cc: Graph::SampleNeighbor, Graph::UniformSampleNeighbor"]}
{"id": "C15", "title": "Weighted neighbor sampling across partitions keeps the weights", "statement": "When the edges of a node are stored in several partitions every sampled slot holds edge e with probability weight(e)/total weight.", "quantifier": "every split of the edges over partitions, every slot", "why_tests_cant": "Distribution of a multi stage random process over all splits.", "anchors": ["src/cc/lib/graph/partition.cc: SampleNeighbor", "src/cc/lib/graph/graph.cc: Graph::SampleNeighbor"]}
{"id": "C16", "title": "Sampling without replacement never repeats an edge", "statement": "uniform_sample_neighbors(without_replacement=True) returns distinct edges, min(count, available) of them, for temporal and non temporal graphs.", "quantifier": "every edge list, timestamp, count and every random stream", "why_tests_cant": "Must hold for every random stream and every set of expired edges.", "anchors": ["src/cc/lib/graph/partition.cc: UniformSampleNeighborWithoutReplacement", "src/cc/lib/graph/reservoir.cc: AlgorithmL::add"]}
{"id": "C17", "title": "The reservoir keeps distinct stream positions", "statement": "After any sequence of batches the reservoir of size k holds min(k, items seen) distinct items of the stream.", "quantifier": "every sequence of batch sizes, every random stream", "why_tests_cant": "Skip counters carry over between calls; all histories matter.", "anchors": ["src/cc/lib/graph/reservoir.cc: AlgorithmL::add"]}
{"id": "C18", "title": "Sampling with replacement is uniform over all batches", "statement": "After batches of sizes w_1..w_m every slot of the reservoir holds each of the w_1+..+w_m items with equal probability.", "quantifier": "every sequence of batch sizes (exact arithmetic)", "why_tests_cant": "Distribution over all histories.", "anchors": ["src/cc/lib/graph/reservoir.cc: WithReplacement::add"]}
{"id": "C19", "title": "Merging shard samples without replacement is uniform and exhaustive", "statement": "Merging per shard samples keeps distinct items, and with exactly k items overall keeps all of them; every shard's items have a chance proportional to its size.", "quantifier": "every number of shards and sizes, every random stream", "why_tests_cant": "Bookkeeping between shards is only visible with three or more shards.", "anchors": ["src/cc/lib/graph/reservoir.cc: WithoutReplacementMerge::add, sample_n"]}
{"id": "C20", "title": "Node sampling without replacement is exhaustive", "statement": "Sampling size nodes without replacement returns min(size, population) distinct nodes of the requested types; asking for the whole population returns every node exactly once.", "quantifier": "every split of nodes over types and partitions, every size, every random stream", "why_tests_cant": "Binomial splits with clamping: all random outcomes.", "anchors": ["src/cc/lib/graph/sampler.cc: SamplerImpl::Sample, SampleWithoutReplacement, conditional_probabilities"]}
{"id": "C21", "title": "Samplers choose a partition in proportion to its weight", "statement": "The sequence of binomial draws used to split a sample over partitions and types gives partition i the probability w_i / sum(w).", "quantifier": "every list of positive weights (exact arithmetic)", "why_tests_cant": "Identity over all weight vectors.", "anchors": ["src/cc/lib/graph/sampler.cc: conditional_probabilities, SamplerImpl::SamplerImpl, SamplerImpl::Sample"]}
{"id": "C22", "title": "Distributed neighbors equal local neighbors", "statement": "neighbors() through servers returns for every node the concatenation, in server order, of what each server stores, with matching counts, whatever the order in which replies arrive.", "quantifier": "every split of a graph over servers, every order of replies, every node list (repetitions and unknown nodes included)", "why_tests_cant": "Reply order is nondeterministic.", "anchors": ["src/cc/lib/distributed/client.cc: GRPCClient::FullNeighbor", "src/cc/lib/distributed/graph_engine.cc: GetNeighbors"]}
{"id": "C23", "title": "Distributed neighbor counts equal local counts", "statement": "neighbor_counts() through servers is the sum of the counts of the servers, independent of reply order.", "quantifier": "every split over servers, every reply order, every node list", "why_tests_cant": "Reply order is nondeterministic.", "anchors": ["src/cc/lib/distributed/client.cc: GRPCClient::NeighborCount", "src/cc/lib/distributed/graph_engine.cc: GetNeighborCounts"]}
{"id": "C24", "title": "Distributed node features do not depend on reply order", "statement": "node_features() through servers returns the newest value over all servers (zeros if no server has it) whatever the order of replies.", "quantifier": "every distribution of features over servers, every reply order", "why_tests_cant": "Reply order is nondeterministic, ties only show for some orders.", "anchors": ["src/cc/lib/distributed/client.cc: GRPCClient::GetNodeFeature", "src/cc/lib/distributed/graph_engine.cc: GetNodeFeatures"]}
{"id": "C25", "title": "Distributed node types equal local node types", "statement": "node_types() gives the same answer through servers and on a local graph over the same partitions.", "quantifier": "every graph, every split over servers, every node id", "why_tests_cant": "Two implementations over all inputs.", "anchors": ["src/cc/lib/distributed/client.cc: GRPCClient::GetNodeType", "src/cc/lib/distributed/graph_engine.cc: GetNodeTypes", "src/cc/lib/graph/graph.cc: Graph::GetNodeType"]}
{"id": "C26", "title": "Distributed sparse and string features pick the newest value", "statement": "When several servers hold a value for the same node and feature, the one with the newest timestamp is returned, independent of reply order and of which other features are missing.", "quantifier": "every combination of values and timestamps over servers, every reply order", "why_tests_cant": "Cursor arithmetic over flattened replies; failures need a missing feature in front.", "anchors": ["src/cc/lib/graph/merger.h: UpdateStringFeatureIndex, UpdateSparseFeatureIndex, ExtractStringFeatures, ExtractFeatures", "src/cc/lib/distributed/graph_engine.cc: GetNodeStringFeatures, GetNodeSparseFeatures"]}
{"id": "C27", "title": "Random walks follow edges", "statement": "Every row of random_walk starts with the input node, and each next node is an out-neighbor of the current one through a requested type, or the default once the walk is stuck.", "quantifier": "every graph, metapath, p and q, every random stream", "why_tests_cant": "Must hold for every random stream and every graph.", "anchors": ["src/cc/lib/py_graph.cc: RandomWalk"]}
{"id": "C28", "title": "PPR sampling conserves probability mass and meets its tolerance", "statement": "For every node the scores are non negative, sum to at most 1, the returned list is sorted and holds the best count scores, and when it stops every residual is below alpha*eps*degree.", "quantifier": "every graph, alpha, eps, count (exact arithmetic)", "why_tests_cant": "Invariant over all push sequences.", "anchors": ["src/cc/lib/py_graph.cc: PPRSampleNeighbor"]}
{"id": "C29", "title": "Text reader yields every line once for any buffer size", "statement": "Iterating a TextFileIterator yields exactly the lines of the files, in order, in batches of batch_size with only the last shorter, independent of block size and thread count.", "quantifier": "every file content, block size, thread count and batch size", "why_tests_cant": "Depends on where block boundaries fall relative to line ends.", "anchors": ["src/python/deepgnn/graph_engine/_adl_reader.py: TextFileIterator._read_block_by_threads, _read_block, __next__"]}
{"id": "C30", "title": "Prefetching delivers every batch exactly once", "statement": "Iterating a prefetch Generator yields the result of every sampler batch exactly once and then stops, or raises if a query raised, for every interleaving of worker completions.", "quantifier": "every number of batches, every completion order of the workers, every failing batch", "why_tests_cant": "Thread schedules.", "anchors": ["src/python/deepgnn/graph_engine/prefetch.py: Generator.__next__, _produce_func"]}
{"id": "C31", "title": "Data parallel file samplers cover the data exactly once per epoch", "statement": "The batches produced over all data parallel indices together contain every element exactly epochs times, padded only at the end.", "quantifier": "every data length, batch size, number of data parallel workers, epochs", "why_tests_cant": "Boundary arithmetic over all sizes.", "anchors": ["src/python/deepgnn/graph_engine/samplers.py: _NumpyIterator.__next__"]}
{"id": "C32", "title": "Range samplers cover the range exactly once", "statement": "RangeNodeSampler over all worker and data parallel indices yields every id of the range exactly once (besides backfill).", "quantifier": "every range, batch size, number of workers and data parallel workers", "why_tests_cant": "Boundary arithmetic over all sizes.", "anchors": ["src/python/deepgnn/graph_engine/samplers.py: RangeNodeSampler, _RangeNodeIterator.__next__"]}
{"id": "C33", "title": "Work is split over workers and servers without loss or overlap", "statement": "Files assigned to workers and partitions assigned to servers form a partition: every item belongs to exactly one of them.", "quantifier": "every number of items, workers and servers", "why_tests_cant": "All sizes.", "anchors": ["src/python/deepgnn/graph_engine/samplers.py: get_files, FileTupleSampler", "src/python/deepgnn/graph_engine/snark/distributed.py: Server.__init__", "src/python/deepgnn/graph_engine/_adl_reader.py: TextFileIterator"]}
{"id": "C34", "title": "len(sampler) is the number of batches", "statement": "len() of a file based or range sampler equals the number of batches its iterator yields.", "quantifier": "every length, batch size, data parallel index and count, drop_last", "why_tests_cant": "Arithmetic over all sizes.", "anchors": ["src/python/deepgnn/graph_engine/samplers.py: BaseSampler.__len__ implementations, _NumpyIterator, _RangeNodeIterator, CSVNodeSampler"]}
{"id": "C35", "title": "Skip-gram generation returns exactly the window pairs", "statement": "gen_skipgrams(path, left, right) returns for each position one pair with every position at most left before and right after it, and get_skipgrams_size is their number.", "quantifier": "every path length and window sizes", "why_tests_cant": "All lengths and windows.", "anchors": ["src/python/deepgnn/graph_engine/graph_ops.py: gen_skipgrams, get_skipgrams_size"]}
{"id": "C36", "title": "sub_graph returns the k-hop neighborhood", "statement": "sub_graph returns as nodes exactly the nodes reachable within the requested hops, the adjacency holds exactly the edges leaving nodes of the inner hops, and src positions point to the input nodes.", "quantifier": "every graph, seed set, number of hops", "why_tests_cant": "Induction over hops on arbitrary graphs.", "anchors": ["src/python/deepgnn/graph_engine/graph_ops.py: sub_graph"]}
{"id": "C37", "title": "Multi-hop neighbor tensors reconstruct the graph", "statement": "For every hop the returned index pairs, mapped back through the node lists, are exactly the (node, neighbor) edges of that hop with their weights.", "quantifier": "every graph, node list and sequence of edge types", "why_tests_cant": "Index compression over arbitrary data.", "anchors": ["src/python/deepgnn/graph_engine/multihop.py: get_neighbor, _full_neighbor, sample_fanout"]}
{"id": "C38", "title": "Merging metadata of several converters equals one conversion", "statement": "merge_metadata_files of the per-worker meta files keeps the per partition weights and sums the counts.", "quantifier": "every list of worker metadata with any number of partitions", "why_tests_cant": "Aliasing only shows with two or more partitions per worker.", "anchors": ["src/python/deepgnn/graph_engine/snark/meta_merger.py: Meta.__init__, merge, merge_metadata_files"]}
{"id": "C39", "title": "Multi worker conversion loses no input", "statement": "For every worker count the partitions generated by the workers are disjoint, are all partitions asked for, and every input line is converted by some worker.", "quantifier": "every partition count, worker count, set of input files", "why_tests_cant": "All combinations of counts.", "anchors": ["src/python/deepgnn/graph_engine/snark/convert.py: MultiWorkersConverter.__init__, convert", "src/python/deepgnn/graph_engine/_adl_reader.py: get_worker_files"]}
{"id": "C40", "title": "Storage back ends return the same bytes", "statement": "Memory, disk and streaming storage return the same bytes for every sequence of in-range reads.", "quantifier": "every file content and every sequence of (offset, size) reads", "why_tests_cant": "Buffering depends on the read history.", "anchors": ["src/cc/lib/graph/storage.h: MemoryStorage, DiskStorage, HDFSStreamStorage"]}
{"id": "C41", "title": "Sparse features round trip", "statement": "A sparse feature written with coordinates and values is read back with the same coordinates, prefixed with the index of the requested node, and the same values.", "quantifier": "every list of coordinates, dimensions and values", "why_tests_cant": "Header arithmetic over all sizes.", "anchors": ["src/python/deepgnn/graph_engine/snark/converter/writers.py: convert_features", "src/cc/lib/graph/partition.cc: deserialize_sparse_features, GetNodeSparseFeature"]}
{"id": "C42", "title": "String features round trip", "statement": "A string feature is read back byte for byte with its exact length, for any list of features and nodes, missing ones having length zero.", "quantifier": "every list of strings, every query", "why_tests_cant": "Offsets over all sizes.", "anchors": ["src/python/deepgnn/graph_engine/snark/converter/writers.py: convert_features, NodeFeatureWriter.add", "src/cc/lib/graph/partition.cc: GetNodeStringFeature, deserialize_string_features"]}
{"id": "C43", "title": "Escaped delimiters in edge lists survive decoding", "statement": "A binary feature whose delimiters and escape characters were escaped is decoded into the original string (as one field) and the following fields are not shifted.", "quantifier": "every string", "why_tests_cant": "All strings.", "anchors": ["src/python/deepgnn/graph_engine/snark/decoders.py: EdgeListDecoder._get_feature, decode"]}
{"id": "C44", "title": "JSON decoding hands edges to the writer in an acceptable order", "statement": "JsonDecoder yields the node first and then every edge of the record exactly once ordered by type, then creation and removal time (never removed last), then destination, so the writer's order assertions hold.", "quantifier": "every record", "why_tests_cant": "Sorting with defaults over all records.", "anchors": ["src/python/deepgnn/graph_engine/snark/decoders.py: JsonDecoder.decode", "src/python/deepgnn/graph_engine/snark/converter/writers.py: BinaryWriter.add"]}
{"id": "C45", "title": "Exactly one graph server is started per host", "statement": "Over all workers of a job the computed server indices are exactly 0..hosts-1, one per host, all others -1.", "quantifier": "every list of worker addresses", "why_tests_cant": "All host lists and orders.", "anchors": ["src/python/deepgnn/graph_engine/backends/snark/client.py: SnarkDistributedBackend._extract_server_index, _try_ddp"]}
{"id": "C46", "title": "A discovered server listens on its own address", "statement": "With automatic discovery the i-th server starts on the address advertised by the worker with server index i.", "quantifier": "every number of workers and every directory listing order", "why_tests_cant": "Directory listing order is arbitrary.", "anchors": ["src/python/deepgnn/graph_engine/backends/snark/client.py: _AddressReader, _AddressFinder, SnarkDistributedBackend.__init__"]}
{"id": "C47", "title": "A local client loads the partitions it was asked for", "statement": "Creating a local client with partitions=[p...] makes exactly those partitions available.", "quantifier": "every list of partition numbers", "why_tests_cant": "Tests only use 0..n-1.", "anchors": ["src/python/deepgnn/graph_engine/snark/local.py: Client.__init__"]}
{"id": "C48", "title": "Sampling uses the requested strategy", "statement": "Every call of sample_nodes / sample_edges samples with the strategy and types of that call, whatever was sampled before.", "quantifier": "every history of calls", "why_tests_cant": "Depends on the history of calls.", "anchors": ["src/python/deepgnn/graph_engine/snark/local.py: Client.sample_nodes, Client.sample_edges"]}
{"id": "C49", "title": "Start-up and shutdown are synchronized", "statement": "A client is only created once all servers are up, and no server stops while a started client is still connected.", "quantifier": "every interleaving of starting and stopping processes", "why_tests_cant": "Process schedules and crash points.", "anchors": ["src/python/deepgnn/graph_engine/backends/snark/synchronized.py: SynchronizedClient, SynchronizedServer, _ServerProcess"]}
{"id": "C50", "title": "A failed request does not corrupt memory", "statement": "When one server fails, the call reports the error and no callback of another server touches the buffers of the finished call.", "quantifier": "every schedule of replies and failures", "why_tests_cant": "Race between error return and late callbacks.", "anchors": ["src/cc/lib/distributed/client.cc: WaitForFutures, AsyncCompleteRpc"]}
{"id": "C51", "title": "Distributed weighted sampling only returns neighbors and keeps the weights", "statement": "Merging sampled neighbors of several servers keeps every slot a real neighbor from some server, and each slot has probability proportional to weight, independent of reply order.", "quantifier": "every number of servers, every weights, every reply order, every random stream", "why_tests_cant": "Distribution over random streams and schedules.", "anchors": ["src/cc/lib/graph/merger.h: MergeWeightedSampledNeighbors", "src/cc/lib/distributed/graph_engine.cc: WeightedSampleNeighbors"]}
{"id": "C52", "title": "Distributed node and edge sampling fills the whole answer", "statement": "sample_nodes/sample_edges through servers fills exactly the requested number of slots from servers that own elements of the requested types, for every split.", "quantifier": "every distribution of types over servers (including servers without the type), every size, every random stream", "why_tests_cant": "Needs servers without the requested type in particular positions.", "anchors": ["src/cc/lib/distributed/client.cc: CreateSampler, SampleNodes, SampleEdges", "src/cc/lib/distributed/graph_sampler.cc: Create, Sample"]}
{"id": "C53", "title": "Distributed metadata equals local metadata", "statement": "The metadata a distributed client sees has the node, edge and per type counts of the whole graph.", "quantifier": "every metadata, every number of servers", "why_tests_cant": "All metadata values; write, transfer and parse compose.", "anchors": ["src/cc/lib/distributed/client.cc: WriteMetadata", "src/cc/lib/distributed/graph_engine.cc: GetMetadata", "src/cc/lib/graph/metadata.cc: Metadata::Metadata, Metadata::Write", "src/python/deepgnn/graph_engine/snark/meta.py: Meta"]}
{"id": "C54", "title": "Fan-out sampling has the documented shape and only real neighbors", "statement": "sample_fanout(nodes, types, fanouts) returns at hop h exactly len(nodes)*f_1*..*f_h entries whose j-th block of f_h entries are samples of the neighbors of the j-th entry of the previous hop.", "quantifier": "every node list and list of fanouts, every random stream", "why_tests_cant": "All fanouts and streams.", "anchors": ["src/python/deepgnn/graph_engine/multihop.py: sample_fanout"]}
{"id": "C55", "title": "CSV node sampler covers the file once per epoch", "statement": "CSVNodeSampler over all data parallel indices yields each listed node once per epoch and len() batches.", "quantifier": "every file length, batch size, number of data parallel workers and epochs", "why_tests_cant": "Arithmetic over all sizes.", "anchors": ["src/python/deepgnn/graph_engine/samplers.py: CSVNodeSampler"]}
{"id": "C56", "title": "Reading features of partially skipped partitions is safe", "statement": "Requesting an unknown feature id, an empty stored value or a size larger than stored never reads bytes of another feature.", "quantifier": "every stored layout, every request", "why_tests_cant": "Out of bounds reads show only for particular layouts.", "anchors": ["src/cc/lib/graph/partition.cc: GetNodeFeature, deserialize_temporal_feature"]}
{"id": "C57", "title": "The random generator never degenerates", "statement": "The generator state update is injective on 128 bit states and never maps a nonzero state to the zero state, so streams never get stuck.", "quantifier": "every generator state", "why_tests_cant": "2^128 states.", "anchors": ["src/cc/lib/graph/xoroshiro.h: Xoroshiro128PlusGenerator"]}
{"id": "C58", "title": "Samples with replacement hold every element in proportion to its weight", "statement": "In a sample of n nodes (or edges) with replacement, the expected number of slots holding element x is n times the weight of x over the weight of all elements of the requested types, wherever the elements are stored; for uniform samplers every element weighs 1.", "quantifier": "every split of elements over types and partitions, all non-negative weights with positive total, every sample size (exact arithmetic, ideal random numbers)", "why_tests_cant": "Composition of converter alias tables, partition weights and binomial splits for all weight vectors.", "anchors": ["src/cc/lib/graph/sampler.cc: SamplerImpl::Sample, WeightedNodeSamplerPartition::Sample, UniformNodeSamplerPartition", "src/python/deepgnn/graph_engine/snark/alias.py"]}
{"id": "C59", "title": "Uniform neighbor sampling is uniform and independent", "statement": "uniform_sample_neighbors with replacement fills the slots with independent draws, each uniform over the edges of the node of the requested types that exist at the requested time, however the edges are split over partitions.", "quantifier": "every split of edges over partitions, every time, every joint event of the slots", "why_tests_cant": "Joint distribution of slots over all graphs.", "anchors": ["src/cc/lib/graph/partition.cc: UniformSampleNeighborWithReplacement", "src/cc/lib/graph/reservoir.cc: WithReplacement::add"]}
{"id": "C60", "title": "The number of servers is found from the metadata", "statement": "When neither the number of servers nor their addresses are given, the distributed backend starts min(partitions, 4) servers according to meta.json of the converted graph.", "quantifier": "every converted graph", "why_tests_cant": "The unit tests write a metadata file of an older line based format.", "anchors": ["src/python/deepgnn/graph_engine/backends/snark/client.py: SnarkDistributedBackend._get_server_index_client_rank", "src/python/deepgnn/graph_engine/snark/convert.py: MultiWorkersConverter.convert"]}
{"id": "C61", "title": "JSON features are placed at their index", "statement": "JsonDecoder returns for every record a list as long as the largest feature index plus one, holding at every index the value given for it (the last one when several feature dictionaries name the index) and None elsewhere.", "quantifier": "every set of feature dictionaries", "why_tests_cant": "All index sets in any order.", "anchors": ["src/python/deepgnn/graph_engine/snark/decoders.py: JsonDecoder._pull_features"]}
{"id": "C62", "title": "TSV lines of the documented format are decoded", "statement": "TsvDecoder reads every line of the documented format: the node, then each neighbor once ordered by type and destination, missing columns defaulted, every feature parsed with its documented type.", "quantifier": "every line of the documented format", "why_tests_cant": "All lines.", "anchors": ["src/python/deepgnn/graph_engine/snark/decoders.py: TsvDecoder.decode, _parse_feature_string"]}
{"id": "C63", "title": "Last-N neighbors through servers are the N most recently created edges of all servers", "statement": "lastn_neighbors through any number of servers returns, for every order in which the replies arrive, min(count, number alive on all servers) distinct edges alive at t such that no edge left out on any server was created later than one returned, the rest defaults; the answer equals that of a local graph with the same partitions.", "quantifier": "every placement of partitions, every order of replies, every edge list, timestamp and count", "why_tests_cant": "The merge combines per-server selections through a heap whose slots are reused; all placements, ties and reply orders matter.", "anchors": ["src/cc/lib/graph/merger.h: MergeLastNCreatedNeighbors", "src/cc/lib/distributed/graph_engine.cc: GetLastNCreatedNeighbors", "src/cc/lib/distributed/client.cc: GRPCClient::LastNCreated"]}
{"id": "C64", "title": "Uniform neighbor sampling through servers samples the edges of all servers", "statement": "Through any number of servers uniform sampling without replacement returns min(count, number of matching edges on all servers) edges, none twice, the rest defaults, every set equally likely; with replacement every slot is independently a uniform choice from the matching edges of all servers, or the default when there are none. Every answer has count slots per node.", "quantifier": "every placement of partitions, edge list, timestamp, count and random choice", "why_tests_cant": "A statement about probabilities over all placements; the merge of per-server samples happens only with several servers.", "anchors": ["src/cc/lib/distributed/graph_engine.cc: UniformSampleNeighbors", "src/cc/lib/distributed/client.cc: GRPCClient::UniformSampleNeighbor"]}
{"id": "C65", "title": "Edge features through servers are the features of one server that has the edge", "statement": "edge_features() through any number of servers returns, for every order in which replies arrive, for every edge the values held by a server that has a value of it, and zeros only when no server has one; when every edge is stored once the answer equals that of a local graph with the same partitions.", "quantifier": "every placement of partitions, every list of edges, features and timestamps, every order of replies", "why_tests_cant": "Rows are copied by whichever callback runs; offsets into flattened replies depend on which edges a server lacks.", "anchors": ["src/cc/lib/distributed/client.cc: GRPCClient::GetEdgeFeature", "src/cc/lib/distributed/graph_engine.cc: GetEdgeFeatures"]}
{"id": "C66", "title": "String and sparse edge features through servers are the values of a server that has them", "statement": "edge_string_features() and edge_sparse_features() through any number of servers return, for every order in which replies arrive, for every edge and feature the newest value held by any server and nothing only when no server has one, with offsets, lengths and coordinates that belong to that edge; the answer equals that of a local graph with the same partitions.", "quantifier": "every placement of partitions, every list of edges, features and timestamps, every order of replies", "why_tests_cant": "Replies are flattened and reassembled by cursors shared between callbacks; errors appear only when servers lack some of the edges or features.", "anchors": ["src/cc/lib/distributed/client.cc: GRPCClient::GetEdgeStringFeature, GetEdgeSparseFeature", "src/cc/lib/distributed/graph_engine.cc: GetEdgeStringFeatures, GetEdgeSparseFeatures", "src/cc/lib/distributed/merger.h: UpdateStringFeatureIndex, UpdateSparseFeatureIndex"]}
{"id": "C67", "title": "The server answers every request once and stops cleanly", "statement": "A server answers every accepted request exactly once with the status and reply its service returns, always has a call object waiting for every method and queue while it runs, and when it is destroyed at any moment it refuses or answers what is left, deletes every call object, joins every thread and never registers anything with a queue that is shut down.", "quantifier": "every interleaving of clients, threads, gRPC and the destructor, any number of threads and requests, any service", "why_tests_cant": "Which thread gets which request and when the destructor runs is up to the scheduler; a test sees a handful of interleavings.", "anchors": ["src/cc/lib/distributed/server.cc: GRPCServer::GRPCServer, ~GRPCServer, HandleRpcs", "src/cc/lib/distributed/call_data.cc: *CallData::Proceed"]}
{"id": "C68", "title": "The engine finds the files of every partition where the converter or the download put them", "statement": "No two converter workers write the same file. The engine opens for every partition, in every role (node map, indices, features, neighbours, time stamps, alias tables), exactly the file the converter wrote for it, and after a download from a remote filesystem the files it opens have the contents of the source.", "quantifier": "every set of partition numbers and types, every placement of partitions in folders and filesystems, every contents", "why_tests_cant": "Names are produced and parsed by independent code in two languages; tests use one local folder with partitions 0 and 1.", "anchors": ["src/python/deepgnn/graph_engine/snark/meta.py: _get_*_path", "src/python/deepgnn/graph_engine/snark/_downloader.py: download_graph_data", "src/cc/lib/graph/locator.cc", "src/cc/lib/graph/graph.cc: Graph::Graph"]}
{"id": "C69", "title": "A conversion ends and its result does not depend on the schedule", "statement": "A conversion with any number of workers ends under every schedule: with an error when a line cannot be converted, otherwise with every line converted exactly once, in order, by the worker of its partition and every report taken exactly once, whatever the capacity of pipes and queues; the metadata do not depend on the order of events.", "quantifier": "every interleaving of dispatcher and workers, every number of workers, capacity, input and partition function", "why_tests_cant": "Interleavings of processes and full pipes are up to the operating system; a hang shows up only with particular inputs.", "anchors": ["src/python/deepgnn/graph_engine/snark/dispatcher.py: PipeDispatcher, QueueDispatcher", "src/python/deepgnn/graph_engine/snark/converter/process.py: converter_process"]}
{"id": "C70", "title": "The uploader writes every chunk once and close returns", "statement": "Whatever the interleaving of caller, processes and threads and whatever the size of the queues, writing text inside `with AdlDataWriter(...)` ends, every line handed to write or writelines is afterwards in exactly one closed file, chunks of one file in the order they were written, no file with more than max_chunks_per_file chunks and no file overwritten; writelines cuts its lines into chunks of at most max_lines_per_chunk lines.", "quantifier": "every interleaving, every number of processes and threads, queue size, file limit and sequence of calls", "why_tests_cant": "The store is mocked or absent in tests, and the windows between the look at a thread and its end mark are a few instructions wide.", "anchors": ["src/python/deepgnn/graph_engine/adl_uploader.py: AdlDataWriter, MultiThreadsAdlDataWriter"]}
{"id": "C71", "title": "Typed feature values come back through the Python client", "statement": "For every numpy item type, values of that type written by the converter as dense, string or sparse features are exactly what node_features, edge_features, node_string_features, edge_string_features, node_sparse_features and edge_sparse_features of snark/client.py return for the same item type: dense values cut or padded with zeros to the requested number of values, string values one after the other with the number of values for each element, sparse values with their coordinates prefixed by the index of the element; with timestamps the values of the newest entry not after the timestamp.", "quantifier": "every item type, every graph, every request", "why_tests_cant": "Tests use a few item types and small aligned sizes; sizes, alignment, item width and sign interact with the byte level of writer, reader and numpy views.", "anchors": ["src/python/deepgnn/graph_engine/snark/client.py: node_features, edge_features, node_string_features, edge_string_features, node_sparse_features, edge_sparse_features, _SparseFeatureCallback, _StringFeatureCallback", "src/python/deepgnn/graph_engine/snark/converter/writers.py: convert_features"]}
{"id": "C72", "title": "Training visits every batch once, also when it is interrupted", "statement": "The PyTorch trainer trains each batch of each of the num_epochs epochs exactly once and in order (at most max_samples samples an epoch over all workers), and a training that is interrupted at any moments and continued from its checkpoint directory ends with the weights of an uninterrupted one. The checkpoint a process continues from is the latest one, rotation removes only the oldest ones and leaves max_saved_ckpts, and after the training the last weights are in the directory.", "quantifier": "every dataset, model, optimizer, configuration and every sequence of interruptions", "why_tests_cant": "Tests train a few steps in one process; interruptions, names beyond their width, limits and the interplay of the two kinds of saving are not reached.", "anchors": ["src/python/deepgnn/pytorch/training/trainer.py: _train, _train_one_epoch, _train_one_step, _should_stop, _save_checkpoint, _load_checkpoint, _init_max_steps, _evaluate", "src/python/deepgnn/pytorch/common/utils.py: get_sorted_checkpoints, rotate_checkpoints"]}
{"id": "C73", "title": "The file barrier of distributed training is a barrier", "statement": "DistributedSync.sync(tag) returns in a task only when all num_tasks tasks have called sync(tag), whatever files an earlier job left in the folder and in whatever order the tasks are created, and tasks that call the same tags in the same order never wait for each other for ever.", "quantifier": "every number of tasks, every list of tags, every set of old files, every interleaving of file accesses", "why_tests_cant": "Interleavings of processes on a shared folder, with sleeps of 30 seconds; the bad ones need a particular order of start up.", "anchors": ["src/python/deepgnn/tf/common/dist_sync.py: DistributedSync", "src/python/deepgnn/tf/common/hooks.py: ChiefCheckpointSaverHook, SessionExitHook"]}
{"id": "C74", "title": "GraphSAGE embeddings use a node's own neighbors", "statement": "Stacked SageEncoders give every node of a batch the embedding defined by the node, its own sampled neighbors and the sampled neighbors of those, independent of the rest of the batch; repeated nodes and the deduplication of neighbors do not mix up rows.", "quantifier": "for all graphs, batches of nodes with repetitions, numbers of samples, random choices and layer functions", "why_tests_cant": "The deduplication with np.unique and the reshapes mix up rows only for particular coincidences of repeated neighbors and sizes; tests use one batch and equal sizes.", "anchors": ["src/python/deepgnn/pytorch/encoding/gnn_encoder_sage.py:69-143", "src/python/deepgnn/pytorch/common/aggregators.py:25-35"]}
{"id": "C75", "title": "Forest fire sampling returns a part of the graph of the requested size", "statement": "forest_fire(g, sample_size) ends for every directed graph with at least sample_size nodes and returns a subgraph of g with exactly sample_size nodes.", "quantifier": "for all directed graphs, sample sizes and sequences of random numbers", "why_tests_cant": "The size and the end of the loop depend on the random choices and on how fires meet; a loop that never ends cannot be observed by a test.", "anchors": ["src/python/deepgnn/graph_engine/snark/preprocess/sampler/forest_fire.py: forest_fire", "src/python/deepgnn/graph_engine/snark/preprocess/sampler/metric.py: average_clustering"]}
{"id": "C76", "title": "A dataset delivers the data of its sampler once per epoch", "statement": "Over all ranks and all DataLoader workers a dataset delivers every sample of its files exactly once per epoch (plus padding of incomplete batches), in every epoch, for PyTorch and TensorFlow; its options (batch_size, epochs, num_workers, worker_index) reach the sampler.", "quantifier": "for all files, numbers of ranks and loader workers, batch sizes, epochs, keyword arguments and numbers of passes", "why_tests_cant": "The samplers are configured by matching parameter names at run time and split twice; tests use one process, one epoch and one sampler class.", "anchors": ["src/python/deepgnn/graph_engine/graph_dataset.py: DeepGNNDataset", "src/python/deepgnn/pytorch/common/dataset.py: TorchDeepGNNDataset", "src/python/deepgnn/tf/common/dataset.py: create_tf_dataset", "src/python/deepgnn/graph_engine/samplers.py: FileNodeSampler, CSVNodeSampler"]}
{"id": "C77", "title": "Attention is a weighted mean over the neighbors", "statement": "For every node the output of a graph attention head is the mean of the features of its neighbors, weighted by the softmax of their scores: non negative weights with the sum one, no weight for other nodes, the same for dense and sparse matrices; every head and metapath has its own parameters.", "quantifier": "for all graphs, features, parameters of the heads, numbers of heads, nodes and dimensions", "why_tests_cant": "A softmax over the wrong dimension gives tensors of the right shape with plausible values; tests compare dense and sparse versions on one matrix with self loops.", "anchors": ["src/python/deepgnn/pytorch/nn/gat_conv.py: AttnHead, GATConv", "src/python/deepgnn/tf/nn/gat_conv.py: AttnHead, GATConv", "src/python/deepgnn/pytorch/encoding/gnn_encoder_gat.py: GatEncoder.forward", "src/python/deepgnn/tf/encoders/att_encoder.py: AttEncoder", "src/python/deepgnn/tf/encoders/han_encoder.py: HANEncoder.__init__"]}
{"id": "C78", "title": "TensorFlow GraphSAGE embeds the sampled trees", "statement": "For any number of layers the output row of an input node is the GraphSAGE embedding of a tree of sampled nodes rooted at that node: at hop h every node has as many neighbors as layer L-h-1 asks for, each an answer of the graph for that node, and layer l aggregates the embeddings of layer l-1 of a node and its neighbors.", "quantifier": "for all depths, fanouts, dimensions, aggregators, features, random answers of the graph and batches", "why_tests_cant": "The batch goes through deduplication, index slices, reshapes with reversed lists of fanouts and a triangular loop; a wrong index still gives tensors of the right shape when fanouts are equal.", "anchors": ["src/python/deepgnn/tf/nn/sage_conv.py: aggregate", "examples/tensorflow/sage/sage.py: SAGEQuery._sample_n_hop_neighbors, _query_neighbor, GraphSAGE.call"]}
{"id": "C79", "title": "Graph convolutions and hop encoders compute what their papers define", "statement": "GCN: the normalised adjacency has elements a_ij / sqrt(d_i d_j) for dense and sparse input alike and a layer applies it to the transformed features, then bias and activation. LightGCN: mean of the node and the mean of its neighbors. LGCL: for any depth each node gets the convolution of its row and the k greatest values of every feature among its neighbors, independent of their order, plus its own residual. HetGNN: convex combination over types by attention. LSTM aggregator: output of the last neighbor.", "quantifier": "for all matrices, graphs, depths, fanouts, features, layers (as functions) and batches", "why_tests_cant": "Tests compare single forward passes of fixed size with recorded numbers; wrong rows, dropped weights and missing activations still give tensors of the right shape.", "anchors": ["src/python/deepgnn/tf/nn/gcn_conv.py", "src/python/deepgnn/pytorch/encoding/gnn_encoder_lightgcn.py", "src/python/deepgnn/pytorch/encoding/gnn_encoder_lgcl.py", "src/python/deepgnn/pytorch/encoding/gnn_encoder_hetgnn.py", "src/python/deepgnn/tf/nn/sage_conv.py: LSTMAggregator"]}
{"id": "C80", "title": "Learning rate schedules have the shape they promise", "statement": "Every schedule stays between zero and the rate of the optimizer, rises linearly from zero during warm-up, is full at its end, falls monotonically afterwards (within a cycle for hard restarts) and reaches its end value at num_training_steps and keeps it; no step fails; a resumed training continues the schedule.", "quantifier": "for all steps, numbers of warm-up and training steps (also fractional), cycles, powers and end rates", "why_tests_cant": "Tests sample a few steps of one configuration; the failures are at single steps (all warm-up), after the end, or in resumed trainings.", "anchors": ["src/python/deepgnn/pytorch/common/optimization.py", "src/python/deepgnn/pytorch/training/trainer.py: _create_lr_scheduler, _init_optimizer"]}
{"id": "C81", "title": "Metrics measure what they are named after", "statement": "MRR is the mean over rows of one over the rank of the positive example, the rank being one more than the number of greater scores (any order among ties), in PyTorch and TensorFlow, ascending or descending, and an evaluation gives the metric of all its rows however they are batched; masked accuracy is the share of masked rows whose first greatest score is at the label.", "quantifier": "for all scores, ties and orders topk may choose, numbers of rows and batches, positions of positives and masks", "why_tests_cant": "Tests use one row; with several rows the value is still a plausible number between zero and one.", "anchors": ["src/python/deepgnn/pytorch/common/metrics.py: MRR", "src/python/deepgnn/pytorch/modeling/base_model.py: compute_metric", "src/python/deepgnn/pytorch/training/trainer.py: _evaluate", "src/python/deepgnn/tf/nn/metrics.py: masked_accuracy", "examples/tensorflow/sage/sage_unsupervised.py: _calc_mrr"]}
{"id": "C82", "title": "Text features become the tokens of the text", "statement": "The bytes of a text feature, padded with zeros, become the tokens of the text: word by word, the numbers of its three letter pieces in the vocabulary (the last line that has the piece, 0 for unknown ones and padding), a mask of ones for the words; in every nested context all byte arrays are replaced and nothing else changes; tokens stored as features are the same as tokens of texts; the embedding of a word is the sum of the vectors of its pieces and of its position, and the pooler is a weighted mean over the words.", "quantifier": "for all texts in UTF-8, vocabularies, lengths of sequences and words, nested contexts and shapes of arrays", "why_tests_cant": "The tests of the tokenizers are skipped as deprecated, others use two English words that fit.", "anchors": ["src/python/deepgnn/pytorch/encoding/twinbert/tokenization.py: TriLetterTokenizer, StdBertTokenizer", "src/python/deepgnn/pytorch/encoding/feature_encoder.py: TwinBERTFeatureEncoder", "src/python/deepgnn/pytorch/encoding/twinbert/embedding.py: TriletterEmbeddings", "src/python/deepgnn/pytorch/encoding/twinbert/pooler.py: WeightPooler"]}
{"id": "C83", "title": "Cora and Citeseer become the graph of their files", "statement": "graph.csv of a dataset, read and decoded by the converter, consists of one node per line of the content file with its features and the number of its label, numbered from 1 in the order of the lines, and of one edge in each direction for every two papers connected by a line of the cites file; the node is of type 0 if it is for training, the edge if both ends are; train.nodes and test.nodes list the nodes of the two types, and exactly the requested number is for training.", "quantifier": "for all content and cites files, feature dimensions, splits, shuffles, numbers of threads, block and batch sizes", "why_tests_cant": "The tests build two fixed archives and check counts, signs of sums of features and membership in the node files; no edge is looked at.", "anchors": ["src/python/deepgnn/graph_engine/data/data_util.py: get_edge_list_node, select_training_test_nodes, Dataset", "src/python/deepgnn/graph_engine/data/cora.py: _load_raw_graph", "src/python/deepgnn/graph_engine/data/citeseer.py: _load_raw_graph"]}
{"id": "C84", "title": "PPI and Reddit become the graph of their files", "statement": "graph.csv of PPI and Reddit, decoded, consists of the nodes of the graph file with number, type, label and features, and of as many edges from a to b as there are links between a and b, whichever end comes first, a loop once; an edge is of type 0 if and only if both ends are for training; edges of a node are sorted by type and destination; the node files list the nodes of each type; the label of Reddit is a one in the place of the class.", "quantifier": "for all parsed graph files, maps of numbers, class maps, feature matrices and masks of links", "why_tests_cant": "The test downloads one dataset and compares counts and sums over ten nodes; Reddit has no test.", "anchors": ["src/python/deepgnn/graph_engine/data/ppi.py: PPI", "src/python/deepgnn/graph_engine/data/reddit.py: Reddit, _onehot"]}
{"id": "C85", "title": "The MOOC graph holds every interaction on the edge it belongs to", "statement": "For every file of interactions the generated records have one node per student and, per pair of student and unit, one edge created at the first interaction whose temporal feature is the history of exactly that pair; reading the edge at time t gives the newest interaction not after t.", "quantifier": "every non-empty list of interactions with non-negative numbers, every query time", "why_tests_cant": "The only test is skipped as deprecated and reads one edge; the wrong edges appear only where one student follows another in the sorted file.", "anchors": ["src/python/deepgnn/graph_engine/data/mooc.py:79-170"]}
{"id": "C86", "title": "Citation datasets: every node gets its own row and belongs to one set", "statement": "load_data puts each test row at the number of its node, keeps the known rows and fills gaps with zero rows; the masks mark exactly the nodes of their set; a random split gives disjoint sets of the sizes asked for; node types and node files agree with the masks.", "quantifier": "every list of test numbers, all matrices, all labels, all permutations drawn by the generator, all masks", "why_tests_cant": "Tests load three fixed archives that contain the converted result; neither load_data on other numbers nor random_split is run by any test.", "anchors": ["src/python/deepgnn/graph_engine/data/citation.py:29-116", "src/python/deepgnn/graph_engine/data/citation.py:156-180", "src/python/deepgnn/graph_engine/data/citation.py:260-327"]}
{"id": "C87", "title": "Remote files arrive whole", "statement": "Reading n bytes of a remote file gives exactly the next n bytes whatever portions libhdfs returns, and an address is taken apart into host, port and path; the metadata a process uses is that of its own graph.", "quantifier": "every file, size of the buffer, sequence of answers of hdfsRead, every address, every schedule of the processes of a host", "why_tests_cant": "The tests run against a file system on the same host whose reads are never short and never fail; one process loads one graph from an address with a port.", "anchors": ["src/cc/lib/graph/hdfs_wrap.cc:41-77", "src/cc/lib/graph/hdfs_wrap.cc:221-277", "src/cc/lib/py_graph.cc:1302-1322", "src/cc/lib/graph/metadata.cc:28-47"]}
{"id": "C88", "title": "Command line values mean what they say", "statement": "Lists, tables and flags given as text are read back as the values that were written; a standalone server loads exactly the partitions it is told to, and the servers of a group load every partition exactly once.", "quantifier": "every list, table, word and array; every number of servers and partitions and every index", "why_tests_cant": "Tests start one or two servers with valid indices and parse a handful of literals.", "anchors": ["src/python/deepgnn/arg_types.py:7-97", "src/python/deepgnn/graph_engine/snark/server.py:67-130", "src/python/deepgnn/graph_engine/snark/server.py:175-266"]}
{"id": "C89", "title": "Embeddings written to files are the ones read back", "statement": "The table read from the files of all workers holds, for every node, the embedding that was computed for it (up to rounding to six digits) and zeros for nodes without one, whatever the order in which the files are listed.", "quantifier": "every number of workers, batches, nodes and widths, every table of embeddings, every formatting that separates numbers", "why_tests_cant": "The tests write one file with a few nodes and compare against the same run.", "anchors": ["src/python/deepgnn/tf/common/utils.py:110-158", "src/python/deepgnn/tf/common/tf2_trainer.py:406-446", "src/python/deepgnn/tf/common/trainer.py:253-290", "src/python/deepgnn/pytorch/modeling/base_model.py:68-90"]}
{"id": "C90", "title": "Data parallel training trains one model", "statement": "All processes hold the same weights after every step, they reach the end of training together, and the result is that of one process on the merged batches; reported metrics are those of all data.", "quantifier": "every number of processes, every data of every process and epoch, every model, optimizer and clipping, every epoch and step to resume from", "why_tests_cant": "The tests run one process: world_size is 1 and the collective operations are the identity.", "anchors": ["src/python/deepgnn/pytorch/training/trainer_ddp.py:31-101", "src/python/deepgnn/pytorch/training/trainer_hvd.py:25-89", "src/python/deepgnn/pytorch/training/trainer_fp16.py:56-118", "src/python/deepgnn/pytorch/training/trainer.py:167-340"]}
{"id": "C91", "title": "The graph interface returns what was sampled", "statement": "Client.sample_neighbors returns arrays of shape [len(nodes), count] with id, weight, type and creation time of every sampled neighbor and the defaults of the caller elsewhere, for every strategy; sample_out_edges returns edges of the graph; node_count counts nodes of the given types once.", "quantifier": "every engine, strategy, list of nodes and types, count, defaults, timestamps", "why_tests_cant": "Tests look at ids of one strategy and graphs in which every node has neighbors.", "anchors": ["src/python/deepgnn/graph_engine/snark/local.py:54-311", "src/python/deepgnn/graph_engine/snark/client.py:948-1251", "src/python/deepgnn/graph_engine/graph_ops.py:9-54", "src/python/deepgnn/graph_engine/_base.py:68-111"]}
{"id": "C92", "title": "Requests are retried as the policy says", "statement": "A request to servers is tried at most maxAttempts times, returns the answer of the first success or the last error, and waits initialBackoff * backoffMultiplier^(k-1) seconds, at most maxBackoff, after attempt k; a graph in memory is asked once.", "quantifier": "every sequence of failures and successes, every policy and list of options, every content of the arrays", "why_tests_cant": "Tests do not wait for the backoffs and use servers that answer.", "anchors": ["src/python/deepgnn/graph_engine/snark/client.py:44-81", "src/python/deepgnn/graph_engine/snark/client.py:290", "src/python/deepgnn/graph_engine/snark/client.py:1424-1436"]}
{"id": "C93", "title": "Predictions of interactions use only the past", "statement": "With rows in order of time, the embedding of the source of a row is computed from the latest interactions of the source before the row and of no other node, the memory holds only interactions before the batch, each interaction once, and training, validation and test rows follow each other in time and have the configured shares.", "quantifier": "every converted temporal graph, every sequence of batches and negatives, every number of neighbors, all ratios", "why_tests_cant": "The example is one run on one bipartite file sorted by time; information from the future only improves its scores.", "anchors": ["examples/pytorch/tgn.py:74-97", "examples/pytorch/tgn.py:100-179", "examples/pytorch/tgn.py:182-212", "examples/pytorch/tgn.py:215-237"]}
{"id": "C94", "title": "Triples of typed nodes", "statement": "Training on several node types takes one triple for every hop of every random walk that found a node: the start, the node found and a random node of the same type as the node found, grouped by the types of start and found node; walks start from all nodes of the sample files; the loss is the mean of the losses of the triples, and the metric ranks the node found against the random node by their similarity to the start.", "quantifier": "every answer of the graph, every number of types, hops and start nodes, all embeddings", "why_tests_cant": "The test of the example trains with random walks and compares one score with a tolerance; missing or extra triples and a wrong mean change it a little.", "anchors": ["examples/pytorch/hetgnn/sampler.py:47-121", "examples/pytorch/hetgnn/model.py:181-232", "examples/pytorch/hetgnn/model.py:296-302"]}
{"id": "C95", "title": "Nested batches", "statement": "Moving a batch to the device moves every tensor at any depth and changes nothing else, for every batch of dictionaries, lists and tuples; encoding replaces every sequence with its mask by the embedding of the encoder of its type, at the same place, with its term tensors if asked for, and the mask of the context is that of its term tensors.", "quantifier": "all nested data, all lists of types, shared encoders or one for each type", "why_tests_cant": "Tests encode two flat contexts on the CPU; moving to a device is not tested without one.", "anchors": ["src/python/deepgnn/pytorch/common/utils.py:44-79", "src/python/deepgnn/pytorch/encoding/feature_encoder.py:192-224", "src/python/deepgnn/pytorch/encoding/feature_encoder.py:227-318", "src/python/deepgnn/pytorch/encoding/feature_encoder.py:321-357"]}
{"id": "C96", "title": "A graph for PyTorch Geometric", "statement": "The edge index handed to PyTorch Geometric has exactly the edges of the type between the nodes of the graph, with their ids; the loss of an epoch is the mean over all predictions and the score is that of the test data.", "quantifier": "every converted graph, all lists of nodes, all ids, all losses and predictions", "why_tests_cant": "The example runs on a graph with ids below 3000, where a conversion to 24 bits changes nothing.", "anchors": ["examples/pytorch/pyg_interface.py:21-91", "examples/pytorch/pyg_interface.py:94-175"]}
{"id": "C97", "title": "Link prediction and unsupervised GraphSAGE in TensorFlow", "statement": "Predictions are sigmoids of inner products of the embeddings of the two ends of every edge in order, the loss is the mean cross entropy with the labels of the edges, inference uses the embeddings of training; without labels the loss and the mean reciprocal rank compare every node with its positive and all negatives; every node has its own trained row.", "quantifier": "all layers, aggregators, samplers that answer with allowed neighbors, edges, labels, tables", "why_tests_cant": "The tests train on a fixed graph with a seed and compare rounded losses.", "anchors": ["examples/tensorflow/sage/sage_linkprediction.py:21-229", "examples/tensorflow/sage/sage_unsupervised.py:41-240"]}
{"id": "C98", "title": "Graph in memory and evaluation tasks of HetGNN", "statement": "Sampled neighbors and features are those of the data; a pass over a file visits every node once; the train and test files label 1 exactly the (new) collaborations and 0 only pairs that do not collaborate, as many of each; the venue of an author is the first most frequent; scores use all features and F1 is 2TP/(2TP+FP+FN).", "quantifier": "all graphs, papers, files, batch sizes, random choices and predictions", "why_tests_cant": "The tests run one small data set with random choices and check losses; boundary ids, batch remainders and leaked labels do not show.", "anchors": ["examples/pytorch/hetgnn/graph.py:15-216", "examples/pytorch/hetgnn/main.py:218-292", "examples/pytorch/hetgnn/main.py:385-464", "examples/pytorch/hetgnn/evaluation.py:26-118"]}
{"id": "C99", "title": "The BERT encoder", "statement": "Every head of every position is the attention over the visible positions; padding changes neither the rows of other tokens nor the pooled output; recomputing activations changes nothing; embeddings add word, position and type; focal loss is the mean of its definition.", "quantifier": "all tokens, masks, paddings, numbers of layers and heads, parameters, flags", "why_tests_cant": "The tests compare a forward pass with stored numbers for one text and one mask.", "anchors": ["src/python/deepgnn/pytorch/encoding/twinbert/deepspeed/nvidia_modeling.py:337-960", "src/python/deepgnn/pytorch/encoding/twinbert/deepspeed/loss.py:25-60"]}
{"id": "C100", "title": "Loading a checkpoint into the TwinBERT encoder", "statement": "Loading succeeds exactly when every parameter is found or kept, nothing else is read and shapes agree; afterwards every parameter is the value of the last name read as it, or its own when the checkpoint has no name with the prefix of its module.", "quantifier": "all checkpoints, models, prefixes, sides", "why_tests_cant": "The tests load one small configuration without a checkpoint file.", "anchors": ["src/python/deepgnn/pytorch/encoding/twinbert/encoder.py:111-175"]}
{"id": "C101", "title": "Converting HuggingFace checkpoints", "statement": "After the conversion every parameter is the entry of the checkpoint with its name, query, key and value of each layer joined in this order and words padded with zeros; all other parameters are unchanged.", "quantifier": "all models, layers, arrays, orders of entries", "why_tests_cant": "There is no test of the converters.", "anchors": ["src/python/deepgnn/pytorch/encoding/twinbert/deepspeed/convert_bert_ckpt_to_deepspeed.py:19-343"]}
{"id": "C102", "title": "Heterogeneous graph attention network", "statement": "The query answers for every input and metapath the features of nodes sampled along the edge types of the metapath; the encoder gives every node the attention over metapaths of the attention over its neighbors; predictions and F1 are those of the batch.", "quantifier": "all graphs, samples, metapaths, fanouts, batches and trained weights", "why_tests_cant": "The only test trains with one hop, one metapath and one layer.", "anchors": ["examples/tensorflow/han/han.py:27-215", "src/python/deepgnn/tf/encoders/han_encoder.py:15-151"]}
{"id": "C103", "title": "Shared logger", "statement": "get_logger answers the one configured logger to every thread and configures at most once; threads exclude each other, never block for good, also after exceptions; settings asked for stay in force.", "quantifier": "all numbers of threads, interleavings and failures", "why_tests_cant": "Interleavings and exceptions while the lock is held do not happen in tests.", "anchors": ["src/python/deepgnn/logging_utils.py:25-158"]}
{"id": "C104", "title": "Cache of downloads", "statement": "get_from_cache answers the path of a file with the bytes the server has for the url, downloads only what is not cached, gives different names to different urls and versions and keeps metadata apart; processes, interruptions and changes on the server do not harm.", "quantifier": "all urls, etags, directories, servers, numbers of processes, interleavings and sequences of calls", "why_tests_cant": "Tests do not download, and do not interrupt or interleave processes.", "anchors": ["src/python/deepgnn/pytorch/encoding/twinbert/deepspeed/file_utils.py:46-242"]}
{"id": "C105", "title": "Conversion of TensorFlow checkpoints", "statement": "load_tf_weights_in_bert_kernel gives every parameter of the model the variable of the checkpoint with the corresponding name, kernels transposed, query, key and value merged and words padded, leaves out the optimizer and modules the model does not have, and does the same as the conversion of the equivalent HuggingFace checkpoint.", "quantifier": "all models, checkpoints, layers, arrays and paddings of the vocabulary", "why_tests_cant": "The tests of the repository do not convert TensorFlow checkpoints; names, orders and models are unbounded.", "anchors": ["src/python/deepgnn/pytorch/encoding/twinbert/deepspeed/convert_bert_ckpt_to_deepspeed.py:26-172", "src/python/deepgnn/pytorch/encoding/twinbert/deepspeed/convert_bert_ckpt_to_deepspeed.py:327-343"]}
{"id": "C106", "title": "Migration of scripts", "statement": "The migration scripts replace the old names in every python file below a directory by the new ones, leave all other text and all other files as they were, leave no old name, and can be run again.", "quantifier": "all texts, directories and orders of files", "why_tests_cant": "There are no tests of the migration; texts are unbounded.", "anchors": ["src/python/deepgnn/migrate/0_1_56.py:17-39", "src/python/deepgnn/migrate/0_1_57.py:16-27"]}
{"id": "C107", "title": "Eager trainers of TensorFlow", "statement": "The eager trainers log every log_save_steps-th step once with its epoch, its logs and the time per step since the last line, write each scalar once per step, save one checkpoint per epoch, set every seed, and give different workers different files and devices.", "quantifier": "all executions of Keras (epochs, batches, times, logs), settings and clusters", "why_tests_cant": "Tests run one worker for a few steps and do not read the logs or summaries; collisions need several epochs or tasks.", "anchors": ["src/python/deepgnn/tf/common/tf2_trainer.py:23-266", "src/python/deepgnn/tf/common/tf2_trainer.py:324-446", "src/python/deepgnn/tf/common/tf2_horovod_trainer.py:35-105"]}
{"id": "C108", "title": "Servers of the distributed client and the barrier of the Azure ML example", "statement": "The servers together load every partition once; workers enter the context after all servers are announced, get all addresses, leave together and always come to their end; a client sent to another process is the same.", "quantifier": "all numbers of partitions, servers and workers, all orders of calls of the actor", "why_tests_cant": "The order in which workers poll the actor depends on timing; the example is not run by tests.", "anchors": ["src/python/deepgnn/graph_engine/snark/distributed.py:21-116", "examples/pytorch/aml.py:25-104"]}
{"id": "C109", "title": "Entry points", "statement": "An entry point uses the trainer asked for, trains on every batch of its data in every epoch, predicts every node of its files and closes the graph engine however it ends.", "quantifier": "all trainer types, all stages that may raise, all numbers of epochs, steps, workers and nodes, all batch sizes and shuffles", "why_tests_cant": "Tests run a few combinations of options that succeed; failures between the creation of the backend and the run, and node counts that are not multiples of the batch size are not tried.", "anchors": ["src/python/deepgnn/pytorch/training/factory.py:44-137", "src/python/deepgnn/tf/common/trainer_factory.py:9-102", "examples/tensorflow/sage/main.py:107-246", "examples/tensorflow/sage/main_unsup.py:120-255", "examples/tensorflow/gat/main.py:90-126"]}
{"id": "C110", "title": "Base layers of TensorFlow models", "statement": "Layers have names of their own, make their variables once however often they are called, and Dense, Embedding and SparseEmbedding give for inputs of every shape the value of every row.", "quantifier": "all sequences of classes and calls, all shapes, kernels, biases, tables and ids", "why_tests_cant": "Tests use layers of rank 2 and 3 with one unknown axis and ids for every node, each model made once.", "anchors": ["src/python/deepgnn/tf/layers/base.py:24-209"]}
{"id": "C111", "title": "GCN and GAT examples", "statement": "A query of a GCN or GAT example returns the sub-graph around its batch with a mask of exactly the nodes of the batch; every node of a batch gets its row of the output; an epoch has every node once; evaluation looks at all nodes with the trained model in evaluation mode.", "quantifier": "all converted graphs, edge types, hops, batches, numbers of workers and ranks, models that keep the number of rows, numbers of epochs", "why_tests_cant": "Tests train on Cora with one rank and batches without repeated nodes, and compare an accuracy with a threshold.", "anchors": ["examples/tensorflow/gcn/gcn.py:41-130", "examples/tensorflow/gat/gat.py:38-181", "examples/pytorch/gat.py:59-203", "examples/pytorch/gcn.py:33-193"]}
{"id": "C112", "title": "GraphSAGE example without labels", "statement": "A batch scores sampled edges against random pairs of nodes, each end from the row of its own node; messages go from sampled neighbours to nodes in training and in evaluation; every node may be in a negative pair; batches have the given size.", "quantifier": "all answers of the engine, values of the generator, fanouts, numbers of nodes and edges", "why_tests_cant": "The example trains on Cora, whose links go both ways, and compares an accuracy with a threshold.", "anchors": ["examples/pytorch/sage.py:21-172"]}
{"id": "C113", "title": "Options of the graph engine", "statement": "Options are the given arguments or their defaults, the same in the class and on the command line; they choose the backend; clients and servers of a backend can talk, with TLS exactly when it is enabled, and get all arguments that were given.", "quantifier": "all sets of arguments, certificates and gRPC arguments", "why_tests_cant": "Tests of backends start servers without certificates and pass members of the enums.", "anchors": ["src/python/deepgnn/graph_engine/backends/options.py:23-57", "src/python/deepgnn/graph_engine/snark/converter/options.py:23-37", "src/python/deepgnn/graph_engine/graph_dataset.py:139-163", "src/python/deepgnn/graph_engine/backends/snark/client.py:48-137", "src/cc/lib/distributed/server.cc:133-140"]}
