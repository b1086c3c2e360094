{
 "claims": [
  {
   "property": "C01",
   "status": "partial",
   "theorems": [
    "C01_conversion_loads",
    "C01_selection_loads",
    "C01_neighbors_partial",
    "C01_guard_single",
    "C01_guard_all",
    "C01_guard_stored",
    "C01_missing_type_refuted",
    "C01_weight_refuted"
   ],
   "note": "The full claim is false of the code: a requested type can be skipped (C01_missing_type_refuted) and weights are differences of float32 running sums (C01_weight_refuted). Proved for every record stream, partition list, node list and type list under the guard that excludes exactly these two effects."
  },
  {
   "property": "C02",
   "status": "proved",
   "theorems": [
    "C02_node_types"
   ],
   "note": "Bytes written by the converter, loaded, queried; any number of partitions."
  },
  {
   "property": "C03",
   "status": "proved",
   "theorems": [
    "C03_node_features"
   ],
   "note": "Byte level, any number of partitions and features; feature ids are 32 bit as in the C++ signature."
  },
  {
   "property": "C04",
   "status": "partial",
   "theorems": [
    "C04_edge_features_partial",
    "C04_unsorted_duplicates_refuted"
   ],
   "note": "False for more than 16 parallel edges of one type with repeated destinations out of order (C04_unsorted_duplicates_refuted). Proved when each block has at most 16 edges of the type, or ordered destinations, or no repeated destination."
  },
  {
   "property": "C05",
   "status": "proved",
   "theorems": [
    "C05_counts_are_lengths"
   ],
   "note": "No guard on types or weights."
  },
  {
   "property": "C06",
   "status": "partial",
   "theorems": [
    "C06_temporal_neighbors_partial",
    "C06_removed_at_zero_refuted"
   ],
   "note": "Proved under the guard of C01. removed_at=0 is dropped by the writer (finding)."
  },
  {
   "property": "C07",
   "status": "partial",
   "theorems": [
    "C07_count_of_a_group_partial",
    "C07_counts_partial",
    "C07_removal_order_refuted",
    "C07_creation_order_refuted",
    "C07_large_timestamps_refuted"
   ],
   "note": "The claim is false: the binary searches of NeighborCount assume an order the converter does not enforce, and one comparison narrows the timestamp to 32 bits (three refutations). Proved for all graphs whose edges of a type are ordered by creation and by removal time, for 32 bit timestamps."
  },
  {
   "property": "C08",
   "status": "proved",
   "theorems": [
    "C08_type_set_neighbors"
   ],
   "note": "For neighbors and neighbor_counts, temporal or not."
  },
  {
   "property": "C09",
   "status": "proved",
   "theorems": [
    "C09_lookup",
    "C09_entry",
    "C09_node_features",
    "C09_edge_features_partial",
    "C09_edge_in_two_blocks_refuted",
    "C09_equal_times_refuted"
   ],
   "note": "C09_lookup is the serializer/reader round trip for every history and time; C09_node_features lifts it to whole graphs (newest over all partitions). Beyond the claim: an edge held by two blocks returns the last block (refuted), entries with equal times are ambiguous (refuted)."
  },
  {
   "property": "C10",
   "status": "partial",
   "theorems": [
    "C10_latest_neighbors_partial",
    "C10_buffers_do_not_matter_partial",
    "C10_still_is_alive",
    "C10_removed_edge_refuted",
    "C10_zero_count_refuted"
   ],
   "note": "Selection of the latest edges proved for all graphs, orders and ties; the code treats an edge removed exactly at t as present (refuted against neighbors) and reads an empty queue for count 0 (refuted). Guard of C01 for weights and skipped types."
  },
  {
   "property": "C100",
   "status": "partial",
   "theorems": [
    "C100_extract",
    "C100_load",
    "C100_intended_partial",
    "C100_unreachable",
    "C100_side",
    "C100_strict",
    "C100_collision_refuted",
    "C100_poolers_refuted",
    "C100_downscale_refuted",
    "C100_bar_refuted"
   ],
   "note": "Proved for any state dicts, prefixes and names: exact result of the extraction, exact condition of a successful load. Missing for 'every parameter is that of the named module': names that hold the prefix elsewhere, several poolers, a layer the model lacks, a bar in the prefix: refuted."
  },
  {
   "property": "C101",
   "status": "partial",
   "theorems": [
    "C101_kernel_partial",
    "C101_wants",
    "C101_torch_partial",
    "C101_pooler",
    "C101_errors",
    "C101_order_refuted",
    "C101_mixed_refuted",
    "C101_pooler_refuted",
    "C101_gamma_refuted",
    "C101_vocabulary_refuted"
   ],
   "note": "Proved for any number of layers, arrays, padded words and orders in which the parts of the attention of a layer are not separated by another layer. Missing: other orders, incomplete layers, models whose pooler is called dense, older names, other parameters of the vocabulary: refuted."
  },
  {
   "property": "C102",
   "status": "partial",
   "theorems": [
    "C102_query",
    "C102_encoder_partial",
    "C102_one_hop",
    "C102_sigmoid",
    "C102_softmax",
    "C102_f1_partial",
    "C102_predict",
    "C102_train",
    "C102_shapes_partial",
    "C102_create_partial",
    "C102_leftover_refuted",
    "C102_none_refuted",
    "C102_empty_refuted",
    "C102_hops_refuted",
    "C102_default_refuted",
    "C102_eager_refuted",
    "C102_test_refuted",
    "C102_f1_refuted",
    "C102_labels_refuted"
   ],
   "note": "Proved for any graph, metapaths, fanouts, batch and trained weights: the query, and the encoder with one layer of heads in TensorFlow 1 if the rows can be regrouped. Missing: leftover edge types, no metapath, several layers, TensorFlow 2, batches that cannot be regrouped, evaluation, F1 of one batch: refuted."
  },
  {
   "property": "C103",
   "status": "partial",
   "theorems": [
    "C103_answer",
    "C103_exclusive",
    "C103_once",
    "C103_progress",
    "C103_steps",
    "C103_settled_partial",
    "C103_getters_partial",
    "C103_setup_partial",
    "C103_sent",
    "C103_telemetry_refuted",
    "C103_handlers_refuted",
    "C103_class_refuted"
   ],
   "note": "Proved for any number of threads, interleavings and failures: the answer, mutual exclusion, one configuration by get_logger, no deadlock; settings are kept when setup is over before others begin. Missing: setup_default_logging_config while other threads run it or get_logger, other logger classes: refuted."
  },
  {
   "property": "C104",
   "status": "partial",
   "theorems": [
    "C104_names",
    "C104_meta",
    "C104_hit",
    "C104_miss",
    "C104_head_error",
    "C104_get_error",
    "C104_sequence",
    "C104_settled_partial",
    "C104_ends",
    "C104_dispatch",
    "C104_dispatch_other",
    "C104_http",
    "C104_no_meta",
    "C104_dispatch_local",
    "C104_split_partial",
    "C104_bare",
    "C104_code",
    "C104_interrupted_refuted",
    "C104_concurrent_refuted",
    "C104_status_refuted",
    "C104_stale_refuted",
    "C104_version_refuted",
    "C104_scheme_refuted",
    "C104_key_refuted",
    "C104_code_refuted"
   ],
   "note": "Proved: names, every call alone, any sequence of calls with servers whose etags name versions, any number of processes and interleavings once nobody writes any more. Missing: crashes while copying, answers while others write, error pages, servers without etags, changes between the two requests, S3 in capitals, keys with # or ?: refuted."
  },
  {
   "property": "C105",
   "status": "partial",
   "theorems": [
    "C105_same",
    "C105_kernel_partial",
    "C105_shape",
    "C105_torch",
    "C105_order_refuted",
    "C105_asked_refuted",
    "C105_pooler_refuted",
    "C105_vocabulary_refuted",
    "C105_errors"
   ],
   "note": "Proved: a TensorFlow checkpoint is converted like the HuggingFace checkpoint with the same content, errors included, hence every parameter gets its array; for any layers, names, arrays and orders that do not separate query, key and value of a layer. Missing: other orders, modules without the parameter a name asks for, poolers without dense_act, the bias of a padded vocabulary: refuted."
  },
  {
   "property": "C106",
   "status": "partial",
   "theorems": [
    "C106_pieces",
    "C106_replace",
    "C106_57",
    "C106_57_done",
    "C106_57_again",
    "C106_56_types",
    "C106_56_done",
    "C106_56_import",
    "C106_56_uses",
    "C106_56_partial",
    "C106_run",
    "C106_run_total",
    "C106_run_stop",
    "C106_unix",
    "C106_read",
    "C106_windows",
    "C106_names_refuted",
    "C106_module_refuted",
    "C106_numpy_refuted",
    "C106_temp_refuted",
    "C106_lines_refuted",
    "C106_order_refuted"
   ],
   "note": "Proved: texts in pieces, the pieces stay and the names are replaced, no old name is left, a second run changes nothing, which files are changed, where a run stops. Missing: parts of other names, attributes of modules, numpy not imported, names with dtype_temp, ends of lines, scripts with errors: refuted."
  },
  {
   "property": "C107",
   "status": "partial",
   "theorems": [
    "C107_lines",
    "C107_order",
    "C107_vars",
    "C107_total",
    "C107_zero",
    "C107_summary",
    "C107_summary_epochs",
    "C107_summary_total",
    "C107_summary_zero",
    "C107_summary_once_partial",
    "C107_evaluate",
    "C107_evaluate_total",
    "C107_evaluate_zero",
    "C107_saves",
    "C107_embedding",
    "C107_embedding_prefix",
    "C107_summary_dir",
    "C107_checkpoint_name",
    "C107_alone",
    "C107_worker",
    "C107_files_partial",
    "C107_horovod",
    "C107_checkpoints",
    "C107_seed_partial",
    "C107_devices",
    "C107_devices_apart",
    "C107_cpu",
    "C107_seconds_refuted",
    "C107_summary_refuted",
    "C107_vars_refuted",
    "C107_chief_refuted",
    "C107_checkpoint_refuted",
    "C107_config_refuted",
    "C107_seed_refuted",
    "C107_prefix_refuted"
   ],
   "note": "Proved: which steps are logged with which epoch, logs and times, summaries of every epoch, evaluation, when checkpoints are due, names of files of different workers, one checkpoint with Horovod, devices. Missing: seconds per step of the first line, summaries of several epochs, the variables logged once in evaluation, tasks that are not workers, one checkpoint without Horovod, TF_CONFIG with Horovod, seed 0, absolute prefixes: refuted."
  },
  {
   "property": "C108",
   "status": "partial",
   "theorems": [
    "C108_shard",
    "C108_owner",
    "C108_all_partial",
    "C108_total",
    "C108_zero",
    "C108_reload_partial",
    "C108_address",
    "C108_port_partial",
    "C108_barrier",
    "C108_addresses",
    "C108_left",
    "C108_stuck",
    "C108_finish_partial",
    "C108_finish_refuted",
    "C108_once_refuted",
    "C108_port_refuted",
    "C108_reload_refuted"
   ],
   "note": "Proved: partitions of every server, each loaded once by the servers of all indices; the barrier lets workers in after all have set their locks, gives all addresses, lets them end after all have left; exactly when workers can come to their end. Missing: a worker that is overtaken polls for ever, the example starts servers with one shard, ports of worlds above ten, options of clients that are sent: refuted."
  },
  {
   "property": "C109",
   "status": "partial",
   "theorems": [
    "C109_torch_trainer",
    "C109_torch_rejects",
    "C109_tf_trainer_partial",
    "C109_tf_defined",
    "C109_multinode_refuted",
    "C109_eager_ps_refuted",
    "C109_tf_main_closes",
    "C109_run_dist_closes_partial",
    "C109_run_dist_last",
    "C109_run_dist_run",
    "C109_run_dist_refuted",
    "C109_workers_zero",
    "C109_workers_some",
    "C109_train_loader_partial",
    "C109_eval_loader",
    "C109_prefetch_refuted",
    "C109_eval_workers_refuted",
    "C109_train_exact",
    "C109_train_given",
    "C109_train_unknown",
    "C109_train_no_steps",
    "C109_train_no_data",
    "C109_train_zero_steps",
    "C109_train_zero_length",
    "C109_gat_train",
    "C109_steps_refuted",
    "C109_epochs_refuted",
    "C109_inference_all",
    "C109_inference_empty",
    "C109_unsup_inference_partial",
    "C109_unsup_inference_small",
    "C109_unsup_inference_refuted"
   ],
   "note": "Proved: choice of trainers, when the backend is closed, which settings loaders accept, batches of every epoch for all shuffles, nodes of inference with their padding. Missing: PyTorch leaves the backend open when a model, dataset or optimizer raises, multinode without eager has no trainer, eager ignores parameter servers, prefetch_factor other than 2 fails without workers, the loader for evaluation uses workers for samplers of the graph engine, steps_per_epoch is ignored or shifts epochs, unsupervised inference drops the last nodes; refuted by witnesses."
  },
  {
   "property": "C11",
   "status": "partial",
   "theorems": [
    "C11_lookup_every_partition",
    "C11_path_with_two_suffixes_refuted"
   ],
   "note": "Proved for one file set per path, any number of paths and any repetition of ids; with two file sets under one path the lookup is wrong (finding)."
  },
  {
   "property": "C110",
   "status": "partial",
   "theorems": [
    "C110_names_distinct_partial",
    "C110_names_first",
    "C110_names_explicit",
    "C110_lower",
    "C110_names_refuted",
    "C110_twice_refuted",
    "C110_variables_once",
    "C110_variables_clash",
    "C110_dense",
    "C110_dense_rejects",
    "C110_dense_vector_refuted",
    "C110_embedding_partial",
    "C110_embedding_unknown",
    "C110_embedding_range",
    "C110_max_id",
    "C110_embedding_refuted",
    "C110_embedding_empty_refuted",
    "C110_sparse_length_partial",
    "C110_sparse_row",
    "C110_sparse_empty_row",
    "C110_sparse_covers",
    "C110_sparse_range",
    "C110_sparse_refuted"
   ],
   "note": "Proved: automatic names are distinct, layers with distinct names make their variables once, Dense gives every value for all ranks above 1, Embedding and SparseEmbedding give the rows of their ids. Missing: a name given by hand may be an automatic one, a model made twice has other names, Dense rejects vectors, Embedding fails with two unknown axes or with an empty axis next to an unknown one, SparseEmbedding gives no rows to nodes without ids at the end; refuted by witnesses."
  },
  {
   "property": "C111",
   "status": "partial",
   "theorems": [
    "C111_mask",
    "C111_mask_length",
    "C111_query",
    "C111_predict_partial",
    "C111_rows_refuted",
    "C111_full_graph_partial",
    "C111_full_set",
    "C111_full_graph_refuted",
    "C111_batches",
    "C111_workers",
    "C111_worker",
    "C111_strided",
    "C111_zero",
    "C111_ranks",
    "C111_ranks_refuted",
    "C111_dropped_refuted",
    "C111_evaluated_partial",
    "C111_evaluated_refuted",
    "C111_shapes_partial",
    "C111_shapes_refuted",
    "C111_train_partial",
    "C111_accuracy_refuted"
   ],
   "note": "Proved: the sub-graph around a batch with a mask of exactly the nodes of the batch, one row for every different node in the order of ids, masks by id over the whole graph when edges stay in the range of ids, batches of the right size shared out among workers of a loader, shapes for sub-graphs of more than one node. Missing: rows in the order of the batch, edges out of the range, the last nodes of the array, sharing among ranks, evaluation beyond the first batch, sub-graphs of one node, accuracy in evaluation mode; refuted by witnesses."
  },
  {
   "property": "C112",
   "status": "partial",
   "theorems": [
    "C112_first_order",
    "C112_seeds_first",
    "C112_index",
    "C112_neighbours",
    "C112_query_partial",
    "C112_messages",
    "C112_starts",
    "C112_fanout_refuted",
    "C112_default_refuted",
    "C112_label_refuted",
    "C112_negatives_partial",
    "C112_last_refuted",
    "C112_last",
    "C112_one_node",
    "C112_epoch",
    "C112_batch",
    "C112_batch_refuted",
    "C112_eval",
    "C112_direction_partial",
    "C112_direction_refuted"
   ],
   "note": "Proved: for every answer of the engine with at least one neighbour per seed, labels point at the rows of their own nodes, messages in training come from sampled neighbours, rows of a sub-graph are its nodes in the order of first occurrences, an epoch draws as many edges as the graph has up to one batch. Missing: an empty first hop, nodes without neighbours (node -1), pairs that are positive and negative at once, the last node as a negative, the given size of batches, evaluation of directed graphs; refuted by witnesses."
  },
  {
   "property": "C113",
   "status": "partial",
   "theorems": [
    "C113_options",
    "C113_converter",
    "C113_defaults_refuted",
    "C113_converter_refuted",
    "C113_agree",
    "C113_plain",
    "C113_no_data",
    "C113_local",
    "C113_cli_local",
    "C113_cli_remote",
    "C113_names_refuted",
    "C113_custom_refuted",
    "C113_no_backend_refuted",
    "C113_skip_tls",
    "C113_started_plain",
    "C113_started",
    "C113_connects_partial",
    "C113_enabled_refuted",
    "C113_disabled_refuted",
    "C113_server_key",
    "C113_server_missing",
    "C113_arguments_partial",
    "C113_arguments_refuted"
   ],
   "note": "Proved: every option is the given argument or its default, the converter alone is set in its options, arguments of the command line choose the local or the distributed backend, a client of running servers uses TLS exactly when it is enabled with a certificate and gets all gRPC arguments. Missing: defaults of the class differ from those of the command line, names of types, TLS of servers that a backend starts (never) and of their clients (with any certificate, enabled or not), gRPC arguments of those clients; refuted by witnesses."
  },
  {
   "property": "C12",
   "status": "proved",
   "theorems": [
    "C12_metadata_totals",
    "C12_conversion_completes",
    "C12_every_line_once",
    "C12_queue_totals",
    "C12_negative_type_refuted",
    "C12_queue_unused_partition_refuted"
   ],
   "note": "Any number of workers, any order of arrival, any split by a partition function. Types must be non-negative (a negative type indexes the per type lists from the end, refuted); weight sums are exact. Unused partitions of QueueDispatcher make an unloadable file (refuted)."
  },
  {
   "property": "C13",
   "status": "proved",
   "theorems": [
    "C13_alias_table",
    "C13_vose_sample",
    "C13_node_tables",
    "C13_edge_tables"
   ],
   "note": "Exact arithmetic and ideal random numbers; tables, the Python sampler and the files of a partition writer, including types of zero weight. Types must not be negative."
  },
  {
   "property": "C14",
   "status": "partial",
   "theorems": [
    "C14_weighted",
    "C14_weighted_times_partial",
    "C14_uniform",
    "C14_no_edge",
    "C14_far_removal_refuted",
    "C14_creation_time_refuted"
   ],
   "note": "Weighted sampling without a time: all graphs whose running sums of weights are not negative. With a time the statement is false for removal times beyond 32 bits; proved for times that fit, ordered lives and weights that add up exactly. Uniform sampling: all graphs (ordered lives when a time is given), unless creation times are requested without timestamps."
  },
  {
   "property": "C15",
   "status": "partial",
   "theorems": [
    "C15_one_slot_partial",
    "C15_block_partial",
    "C15_exact_weights",
    "C15_first_slot_refuted",
    "C15_type_order_refuted",
    "C15_expected_number_refuted"
   ],
   "note": "False for more than one slot: slots are ordered by type and partition, and the expected number of slots is biased. Proved: one slot has the right distribution for every split; the expected numbers are right when the edges of the node are in one block. Exact arithmetic and ideal binomial and uniform draws."
  },
  {
   "property": "C16",
   "status": "partial",
   "theorems": [
    "C16_distinct_partial",
    "C16_times_refuted"
   ],
   "note": "False for temporal graphs with different removal times. Proved for every random stream when no time is given or edges of one type have one removal time."
  },
  {
   "property": "C17",
   "status": "proved",
   "theorems": [
    "C17_distinct_positions"
   ],
   "note": "For all oracles with skip >= 1 and slot < k (what the float formulas yield unless W underflows)."
  },
  {
   "property": "C18",
   "status": "proved",
   "theorems": [
    "C18_independent_uniform",
    "C18_uniform_slot"
   ],
   "note": "Joint statement: slots independent and uniform."
  },
  {
   "property": "C19",
   "status": "partial",
   "theorems": [
    "C19_distinct_partial",
    "C19_exhaustive",
    "C19_two_shards_share_partial",
    "C19_three_shards_refuted",
    "C19_shuffle_refuted"
   ],
   "note": "Distinctness and exhaustiveness proved for all outcomes. The statement about proportional chances is refuted twice (three shards; two shards with two items); only the expected share of two shards holds."
  },
  {
   "property": "C20",
   "status": "partial",
   "theorems": [
    "C20_distinct_partial",
    "C20_counts_fit",
    "C20_whole_population",
    "C20_partition_elements",
    "C20_overflow_refuted",
    "C20_no_types_refuted"
   ],
   "note": "The full statement is false: with unbalanced partitions a count can exceed what is left to sample and the output spans overrun; a sampler without valid types is undefined behaviour. Proved for every run whose counts fit, with sufficient conditions, and for samples of the whole population."
  },
  {
   "property": "C21",
   "status": "proved",
   "theorems": [
    "C21_independent_draws",
    "C21_share"
   ],
   "note": "Exact rational weights, ideal binomial draws."
  },
  {
   "property": "C22",
   "status": "proved",
   "theorems": [
    "C22_server_order",
    "C22_neighbors",
    "C22_any_placement"
   ],
   "note": "Every schedule of replies and callbacks; answer equals the local graph loading the same files in server order, and is a per-node permutation for any other placement."
  },
  {
   "property": "C23",
   "status": "proved",
   "theorems": [
    "C23_counts"
   ],
   "note": "Any placement of the partitions over servers, any schedule."
  },
  {
   "property": "C24",
   "status": "partial",
   "theorems": [
    "C24_newest",
    "C24_order_partial",
    "C24_tie_refuted",
    "C24_tie_times_refuted",
    "C24_edges_refuted"
   ],
   "note": "Always a newest value; independent of the schedule and equal to the local answer when values of the same age agree.  With ties the last callback wins (refuted); edge features ignore ages (refuted)."
  },
  {
   "property": "C25",
   "status": "partial",
   "theorems": [
    "C25_some_server",
    "C25_types_partial",
    "C25_placeholder_refuted",
    "C25_two_types_refuted"
   ],
   "note": "Equal to the local answer when every mentioned node has exactly one type; refuted for nodes without record (-1 against default) and nodes with two types (order dependent)."
  },
  {
   "property": "C26",
   "status": "partial",
   "theorems": [
    "C26_strings_partial",
    "C26_strings_local_partial",
    "C26_sparse_some_server_partial",
    "C26_sparse_local_partial",
    "C26_missing_refuted",
    "C26_sparse_refuted"
   ],
   "note": "Strings held by one server are returned for every schedule.  Sparse features: for every schedule the points of a node and feature are those of one server with a value; equal to the local answer with one value per node and feature.  Refuted: a missing feature in front shifts the timestamps of strings; sparse features take the first reply whatever its age."
  },
  {
   "property": "C27",
   "status": "partial",
   "theorems": [
    "C27_walk_partial",
    "C27_servers_partial",
    "C27_symmetric_partial",
    "C27_law_partial",
    "C27_servers_law_partial",
    "C27_reply_order",
    "C27_reverse_refuted",
    "C27_stuck_refuted",
    "C27_loop_refuted",
    "C27_weight_back_refuted"
   ],
   "note": "For every graph, p, q, random stream: rows start with the node; each step goes over an edge, or back to the previous node over an edge that leads to the current one, or to the default when neither exists. On graphs with all edges in both directions and no loops this is the full statement, and the law of the walks is the one of node2vec; through servers the node taken for a random number does not depend on the order of the replies. Refuted on directed graphs: the walk returns over edges that do not exist and gives up on nodes with neighbors. Conditions: the guard of C01, the default is not a node, exact arithmetic, requests for neighbors that succeed."
  },
  {
   "property": "C28",
   "status": "partial",
   "theorems": [
    "C28_ppr_partial",
    "C28_servers_partial",
    "C28_scores",
    "C28_error",
    "C28_timestamps_refuted",
    "C28_zero_refuted"
   ],
   "note": "Without timestamps and for count > 0: the loop stops for 0 < alpha <= 1 and eps > 0; scores and residuals are not negative, conserve mass, every residual is 0 or below alpha*eps*degree, the error of every score is bounded, and the answer holds the best scores in ascending order; local and through servers, for every order of the hash tables. Exact arithmetic; guard of C01. Refuted: with timestamps a node with two neighbors reads behind an array; count = 0 reads the top of an empty queue."
  },
  {
   "property": "C29",
   "status": "partial",
   "theorems": [
    "C29_lines_partial",
    "C29_same_partial",
    "C29_part_partial",
    "C29_files",
    "C29_sampler_partial",
    "C29_shuffled_partial",
    "C29_empty_line_refuted",
    "C29_break_refuted",
    "C29_separator_refuted",
    "C29_invalid_refuted",
    "C29_invalid_block_refuted",
    "C29_threads_refuted",
    "C29_length_refuted",
    "C29_again_refuted",
    "C29_border_refuted",
    "C29_sampler_refuted"
   ],
   "note": "For files of non-empty valid UTF-8 lines that contain no other line break of str.splitlines (CR LF allowed), any number of files and epochs, any block length, thread count and batch size >= 1: the batches are exactly the lines in order, whatever the block length and thread count. As stated for every file content it is false: empty lines are kept or dropped depending on where blocks end, other line separators split lines, invalid bytes lose lines silently, raise or hang."
  },
  {
   "property": "C30",
   "status": "partial",
   "theorems": [
    "C30_once",
    "C30_all",
    "C30_raises_partial",
    "C30_raises_refuted",
    "C30_stays",
    "C30_again",
    "C30_again_refuted",
    "C30_after_raise_refuted",
    "C30_answers",
    "C30_answers_refuted",
    "C30_length",
    "C30_join",
    "C30_bounds",
    "C30_bound",
    "C30_workers_refuted",
    "C30_counts_refuted"
   ],
   "note": "Every interleaving of the producer, its pool and the consumer. Without failures all results come exactly once and then StopIteration, calls are always answered, join ends. With failures: a single failing query can be missed (its FetchDone object is returned as data), two or more cannot. One producer, as all callers use; several producers lose batches."
  },
  {
   "property": "C31",
   "status": "partial",
   "theorems": [
    "C31_cover_partial",
    "C31_batches",
    "C31_drop_last",
    "C31_shuffle_refuted"
   ],
   "note": "Exact cover for any length, batch size, number of data parallel workers and epochs when the processes use one index (no shuffle, or the same shuffles); refuted when shuffling in several processes."
  },
  {
   "property": "C32",
   "status": "partial",
   "theorems": [
    "C32_workers_partial",
    "C32_parallel_partial",
    "C32_lost_refuted",
    "C32_twice_refuted"
   ],
   "note": "Exact cover over any number of workers without data parallelism; the exact ids with data parallelism and one worker; refuted for both (ids lost or duplicated)."
  },
  {
   "property": "C33",
   "status": "proved",
   "theorems": [
    "C33_files",
    "C33_too_few_files",
    "C33_lines",
    "C33_servers",
    "C33_balanced"
   ],
   "note": "Files over workers (get_files and get_worker_files; TextFileSampler passes worker*dpn+index of workers*dpn), lines over workers, partitions over servers."
  },
  {
   "property": "C34",
   "status": "partial",
   "theorems": [
    "C34_yields",
    "C34_len_partial",
    "C34_ge",
    "C34_ge_enough",
    "C34_range_partial",
    "C34_file_refuted",
    "C34_drop_refuted",
    "C34_edge_features_refuted",
    "C34_range_refuted"
   ],
   "note": "len() is off by at most one for every size; exact with one data parallel worker or even division; refuted otherwise and for edge samplers with features and drop_last."
  },
  {
   "property": "C35",
   "status": "partial",
   "theorems": [
    "C35_pairs_partial",
    "C35_size",
    "C35_right_wider",
    "C35_garbage_refuted",
    "C35_fails_refuted"
   ],
   "note": "Exact for equal windows; the size is right for all windows; refuted for different windows (the right window is ignored)."
  },
  {
   "property": "C36",
   "status": "partial",
   "theorems": [
    "C36_sub_graph_partial",
    "C36_diagonal_refuted",
    "C36_zero_hops_refuted"
   ],
   "note": "Any converted graph, seeds, at least one hop: nodes, positions and all forms of the adjacency characterised exactly; the matrix has 2 on the diagonal for a self loop (refuted) and zero hops act as one."
  },
  {
   "property": "C37",
   "status": "proved",
   "theorems": [
    "C37_hops",
    "C37_fits",
    "C37_limit"
   ],
   "note": "Any converted graph with exact weights (guarded), node list and path: every hop maps back to exactly the edges with weights; fails exactly when the padding is too small."
  },
  {
   "property": "C38",
   "status": "partial",
   "theorems": [
    "C38_merge_one_partition_each_partial",
    "C38_merge_counts",
    "C38_shared_rows_refuted",
    "C38_eleven_workers_refuted",
    "C38_more_types_refuted",
    "C38_fewer_types_refuted"
   ],
   "note": "Counts are proved to be sums for any list of files. The merge equals one conversion for at most ten converters with one partition each and equal type counts; false otherwise, with witnesses (rows shared between partitions, name order of eleven files, type count of the first file)."
  },
  {
   "property": "C39",
   "status": "partial",
   "theorems": [
    "C39_ranges_cover",
    "C39_ranges_disjoint",
    "C39_ranges_inside",
    "C39_all_files_read_partial",
    "C39_input_lost_refuted"
   ],
   "note": "Ranges: proved for all counts. Input: every file is read exactly once if the last converter has a partition; otherwise files are lost (refuted for 4 partitions on 3 converters)."
  },
  {
   "property": "C40",
   "status": "partial",
   "theorems": [
    "C40_positional_partial",
    "C40_sequential_partial",
    "C40_pieces",
    "C40_release",
    "C40_release_refuted",
    "C40_end_refuted",
    "C40_overlap_refuted",
    "C40_stale_refuted",
    "C40_restart_refuted"
   ],
   "note": "Positional reads agree before the end of the file in a build with asserts; sequential reads agree for all histories without overlapping buffer moves. Missing because false: NDEBUG memory storage, empty reads at the end of a file on disk, reads of more than half of the buffer, a second start, reads past the end."
  },
  {
   "property": "C41",
   "status": "partial",
   "theorems": [
    "C41_value_round_trip",
    "C41_node_sparse",
    "C41_edge_sparse_partial",
    "C41_node_sparse_ts_partial",
    "C41_edge_sparse_ts_partial",
    "C41_newest_sparse_partial",
    "C41_flat_coordinate_refuted",
    "C41_empty_coordinate_refuted",
    "C41_replaced_points_refuted",
    "C41_replaced_empty_refuted"
   ],
   "note": "Proved for values with one coordinate tuple of positive length per value. Flat coordinates of a single value and empty tuples are accepted by the converter and read back wrongly (refuted). With timestamps and a node in several partitions: proved for values of one point, refuted for values with more points and for empty values."
  },
  {
   "property": "C42",
   "status": "partial",
   "theorems": [
    "C42_node_strings_partial",
    "C42_edge_strings_partial",
    "C42_node_strings_ts_partial",
    "C42_edge_strings_ts_partial",
    "C42_features_in_two_partitions_refuted",
    "C42_no_edge_features_refuted",
    "C42_newest_string_partial",
    "C42_newer_value_refuted"
   ],
   "note": "Proved when at most one record of the element gives a requested value, or one feature is requested. Refuted for features spread over partitions, for graphs without edge features and for several temporal features."
  },
  {
   "property": "C43",
   "status": "partial",
   "theorems": [
    "C43_text_partial",
    "C43_only_holdable",
    "C43_doubled",
    "C43_escape_refuted",
    "C43_node_line_partial",
    "C43_edge_line_partial"
   ],
   "note": "Proved for every text in which neither the end nor a delimiter follows an odd number of escapes, alone and inside whole lines with every combination of defaults; proved that no line is read as another text; refuted for texts with escapes, which are never unescaped."
  },
  {
   "property": "C44",
   "status": "partial",
   "theorems": [
    "C44_all_once",
    "C44_sorted_partial",
    "C44_accepted",
    "C44_defaults_refuted"
   ],
   "note": "Node first, each edge once, types ascending and accepted by the writer: proved for all records. The order by times is proved when every edge has both times, refuted otherwise."
  },
  {
   "property": "C45",
   "status": "partial",
   "theorems": [
    "C45_host",
    "C45_one_per_host_partial",
    "C45_smallest",
    "C45_ddp",
    "C45_duplicate_refuted",
    "C45_again_refuted",
    "C45_ddp_sizes_refuted"
   ],
   "note": "Proved for distinct addresses and a list not sorted before, and for DDP/MPI with the same number of workers on every host; refuted outside."
  },
  {
   "property": "C46",
   "status": "partial",
   "theorems": [
    "C46_listen_partial",
    "C46_same_servers",
    "C46_listing_refuted"
   ],
   "note": "Proved when the directory lists the files by increasing server index, and that every listing yields the same set of addresses; refuted for a listing by name with eleven workers."
  },
  {
   "property": "C47",
   "status": "partial",
   "theorems": [
    "C47_client_loads_partial",
    "C47_exactly_when",
    "C47_default",
    "C47_refuted"
   ],
   "note": "The client loads 0..n-1 whatever was asked for; proved exactly when this is what was asked for."
  },
  {
   "property": "C48",
   "status": "partial",
   "theorems": [
    "C48_nodes_partial",
    "C48_edges_first",
    "C48_edges_partial",
    "C48_edges_refuted",
    "C48_created",
    "C48_long_refuted"
   ],
   "note": "Nodes: proved for all histories with type arrays up to 1000 entries. Edges: the first call with the same types decides the strategy; refuted as stated."
  },
  {
   "property": "C49",
   "status": "partial",
   "theorems": [
    "C49_start",
    "C49_stop_partial",
    "C49_released",
    "C49_connects",
    "C49_clean",
    "C49_one_waits",
    "C49_connected_once",
    "C49_rescued",
    "C49_fork_lock_refuted",
    "C49_race_refuted",
    "C49_stranded_refuted",
    "C49_timeout_refuted",
    "C49_retry_refuted",
    "C49_fork_refuted",
    "C49_threads_refuted",
    "C49_stale_refuted",
    "C49_early_reset_refuted",
    "C49_crash_refuted"
   ],
   "note": "Executions are lists of events of servers, clients, their threads and forks. Clients connect only after every server file was created (no condition); no server stops under a connected client in orderly executions (no server timeout, no client constructed after a server found none, a lock file is deleted once and last). Each condition is needed: witnesses."
  },
  {
   "property": "C50",
   "status": "partial",
   "theorems": [
    "C50_returns",
    "C50_throws",
    "C50_locals_partial",
    "C50_last_partial",
    "C50_call_objects",
    "C50_callbacks",
    "C50_ends",
    "C50_queues_partial",
    "C50_queues_refuted",
    "C50_late_refuted"
   ],
   "note": "Executions of one request and the reply threads. Errors are reported, call objects are used between allocation and deletion, callbacks run once, the call ends. Locals are safe unless a shard other than the last fails; then replies of later shards are stored in locals that are gone (witness)."
  },
  {
   "property": "C51",
   "status": "partial",
   "theorems": [
    "C51_real",
    "C51_real_times_partial",
    "C51_share_partial",
    "C51_default_refuted"
   ],
   "note": "Every slot is the default or a real neighbor of some server, for every random stream and order of replies. Expected slots are by weight over all servers, for every order, when weights add up exactly and either one slot is asked or each server has one row of a node. Refuted: a real neighbor is replaced by the default when a later server offers no weight and the random number is exactly 0. The generator of the client is used by several threads at once without lock; the model takes independent random numbers."
  },
  {
   "property": "C52",
   "status": "partial",
   "theorems": [
    "C52_nodes_partial",
    "C52_edges",
    "C52_nodes_law_partial",
    "C52_edges_law",
    "C52_nodes_refuted",
    "C52_no_edges_refuted"
   ],
   "note": "Edges: full answers from servers that have elements, and the multinomial law of the requests, for every split of at least one element over servers with and without samplers. Nodes: the same when the last server with a sampler has an element; refuted without that condition."
  },
  {
   "property": "C53",
   "status": "proved",
   "theorems": [
    "C53_distributed_metadata",
    "C53_converted_metadata_loads",
    "C53_well_formed_loads",
    "C53_same_weights"
   ],
   "note": "For every well formed metadata (conversions produce it, C53_converted_metadata_loads) the file written by the client equals the one the server loaded up to rounding of weights to float."
  },
  {
   "property": "C54",
   "status": "proved",
   "theorems": [
    "C54_any_sampler",
    "C54_sizes",
    "C54_weighted",
    "C54_without_replacement"
   ],
   "note": "Shapes and blocks for any per node sampler; only neighbors or defaults for weighted sampling and sampling without replacement on converted graphs."
  },
  {
   "property": "C55",
   "status": "partial",
   "theorems": [
    "C55_cover_partial",
    "C55_len_partial",
    "C55_later_passes_empty",
    "C55_count_refuted"
   ],
   "note": "One pass covers the file exactly; later epochs are empty and len() is wrong with several epochs or data parallel workers."
  },
  {
   "property": "C56",
   "status": "partial",
   "theorems": [
    "C56_node_features_depend_on_own_value",
    "C56_edge_features_depend_on_own_value_partial",
    "C56_temporal_empty_value_refuted"
   ],
   "note": "Reads without timestamps depend on the requested value only. With a timestamp an empty value is parsed from the bytes of the next feature (refuted)."
  },
  {
   "property": "C57",
   "status": "proved",
   "theorems": [
    "C57_injective",
    "C57_nonzero",
    "C57_seeds",
    "C57_seeds_differ",
    "C57_cycle"
   ],
   "note": "For every state and every number of draws; also for every seed through SplitMix64."
  },
  {
   "property": "C58",
   "status": "proved",
   "theorems": [
    "C58_weighted",
    "C58_uniform"
   ],
   "note": "Expected number of slots per element, end to end from element weights through alias tables and partition splits."
  },
  {
   "property": "C59",
   "status": "proved",
   "theorems": [
    "C59_uniform_joint"
   ],
   "note": "Ideal random numbers; ordered lives when a time is given; all matching edges when the requested types have no gap (finding of C01), a subset of them otherwise."
  },
  {
   "property": "C60",
   "status": "partial",
   "theorems": [
    "C60_auto_servers_refuted"
   ],
   "note": "Refuted for every metadata file without a line break, which is what the converter writes."
  },
  {
   "property": "C61",
   "status": "proved",
   "theorems": [
    "C61_features",
    "C61_length"
   ],
   "note": "For every list of feature dictionaries."
  },
  {
   "property": "C62",
   "status": "partial",
   "theorems": [
    "C62_edges_partial",
    "C62_line_partial",
    "C62_int_refuted",
    "C62_label_refuted",
    "C62_no_type_refuted",
    "C62_letter_refuted"
   ],
   "note": "Proved for every line that is read without an exception; refuted for several lines of the documented format."
  },
  {
   "property": "C63",
   "status": "partial",
   "theorems": [
    "C63_latest_partial",
    "C63_times_partial",
    "C63_same_edges_refuted",
    "C63_removed_edge_refuted",
    "C63_zero_count_refuted"
   ],
   "note": "Proved for count > 0, with edges removed exactly at t counted (as the code does) and within the limits of C01 (guarded). The same creation times as a local graph; the same edges is false when times tie. count = 0 and removed exactly at t refuted."
  },
  {
   "property": "C64",
   "status": "partial",
   "theorems": [
    "C64_distinct_partial",
    "C64_slot_partial",
    "C64_shape",
    "C64_independent_refuted",
    "C64_null_times_refuted"
   ],
   "note": "Without replacement: distinct edges, the right number (every set equally likely is refuted by C19). With replacement: every slot on its own is uniform; independence refuted. The seed of the client and of the servers are taken as independent; edges of a skipped type as in C59."
  },
  {
   "property": "C65",
   "status": "partial",
   "theorems": [
    "C65_some_server_partial",
    "C65_local_partial",
    "C24_edges_refuted"
   ],
   "note": "For every order of replies the row of an edge is that of one server with a value, zeros only if there is none; equal to the local answer when every edge is in one block. Missing: edges held by several servers give the row of the last callback, not the newest value (C24_edges_refuted); searchable blocks as in C04."
  },
  {
   "property": "C66",
   "status": "partial",
   "theorems": [
    "C66_strings_partial",
    "C66_strings_local_partial",
    "C66_missing_refuted",
    "C66_sparse_refuted",
    "C66_sparse_some_server_partial",
    "C66_sparse_local_partial"
   ],
   "note": "Strings: exact answer for every order of replies when at most one server holds a string, equal to the local graph when one block per edge has the features; the newest value over servers is refuted (shifted timestamps). Sparse: the points of one server with a value for every order, equal to the local graph with one value per edge and feature; refuted for two values."
  },
  {
   "property": "C67",
   "status": "partial",
   "theorems": [
    "C67_safe_partial",
    "C67_answers_partial",
    "C67_listening",
    "C67_all_answered_partial",
    "C67_terminates",
    "C67_finished",
    "C67_cancel_refuted",
    "C67_no_threads_refuted",
    "C67_status_refuted"
   ],
   "note": "State machine of threads, call objects, completion queues, clients and destructor. Every execution: answers are linearised service results, each request answered at most once, one waiting call object per queue and method, finitely many steps, at the end all threads joined and all call objects deleted. Partial because the statement is false: a client that cancels lets Shutdown return while a thread still uses the queue (C67_cancel_refuted), hardware_concurrency() may be 0 (C67_no_threads_refuted), and six methods drop the status of their service (C67_status_refuted); safety and the answer to every request are proved for executions without cancellation."
  },
  {
   "property": "C68",
   "status": "partial",
   "theorems": [
    "C68_apart",
    "C68_once",
    "C68_converted_partial",
    "C68_download_partial",
    "C68_hdfs_partial",
    "C68_temporal_refuted",
    "C68_two_folders_refuted",
    "C68_last_local_refuted",
    "C68_edge_alias_refuted",
    "C68_stray_refuted",
    "C68_hdfs_refuted"
   ],
   "note": "Names of files as strings: no two workers write the same file; in a folder that holds a conversion the engine finds every file of every partition in its role; after a download of a non-temporal graph from one remote folder the engine opens the same contents. Partial because the statement is false: the downloader never fetches time stamps (C68_temporal_refuted), mixes up two remote folders (C68_two_folders_refuted), uses the filesystem of the last partition for all (C68_last_local_refuted), edge alias tables are looked up beside the metadata (C68_edge_alias_refuted), other names starting with neighbors_ confuse the engine (C68_stray_refuted, C68_hdfs_refuted)."
  },
  {
   "property": "C69",
   "status": "partial",
   "theorems": [
    "C69_pipe_result",
    "C69_pipe_terminates",
    "C69_pipe_progress_partial",
    "C69_queue_result_partial",
    "C69_queue_progress_partial",
    "C69_bad_line_never_returns",
    "C69_queue_threads_never_return",
    "C69_bad_line_refuted",
    "C69_queue_threads_refuted"
   ],
   "note": "State machine of dispatcher, pipes or bounded queues and workers. Every execution has a bounded number of actions; one that returns has the metadata of the sequential model of C12; without a line that cannot be converted there is no deadlock. Partial because the statement is false: one undecodable line makes every execution block for ever (C69_bad_line_never_returns, C69_bad_line_refuted), QueueDispatcher with threads always raises at the end of join (C69_queue_threads_never_return)."
  },
  {
   "property": "C70",
   "status": "partial",
   "theorems": [
    "C70_writelines",
    "C70_result_partial",
    "C70_terminates",
    "C70_one_thread_progress_partial",
    "C70_patient_progress_partial",
    "C70_zero_lines_refuted",
    "C70_stop_race_refuted",
    "C70_empty_write_refuted",
    "C70_full_refuted",
    "C70_no_threads_refuted"
   ],
   "note": "State machine of caller, close, monitor, processes, threads, bounded queues and files. When the block has been left every accepted chunk is in exactly one closed file, in order, files within the size limit, no file opened twice; executions are bounded; no deadlock with one thread for each process or if no thread ends while stop looks at the threads. Partial because the statement is false: threads can take each other's end mark and close hangs (C70_stop_race_refuted), an empty write ends a process (C70_empty_write_refuted), writelines gives up with queue.Full (C70_full_refuted), no threads (C70_no_threads_refuted)."
  },
  {
   "property": "C71",
   "status": "partial",
   "theorems": [
    "C71_array_round_trip",
    "C71_node_features_partial",
    "C71_node_features_ts_partial",
    "C71_edge_features_partial",
    "C71_edge_features_ts_partial",
    "C71_node_strings_partial",
    "C71_node_strings_ts_partial",
    "C71_edge_strings_partial",
    "C71_edge_strings_ts_partial",
    "C71_node_sparse_partial",
    "C71_node_sparse_ts_partial",
    "C71_edge_sparse_partial",
    "C71_edge_sparse_ts_partial",
    "C71_no_stamps",
    "C71_short_stamps_refuted",
    "C71_size_wrap_refuted",
    "C71_unaligned_string_refuted",
    "C71_mixed_dimensions_refuted",
    "C71_lost_features_refuted",
    "C71_narrow_coordinates_refuted"
   ],
   "note": "Values of any numpy item type (integers and bit patterns of floats) given to the converter are what the six feature queries of the Python client return, with and without timestamps, end to end over the files. Partial because the statement is false for sizes whose byte count exceeds 32 bit (C71_size_wrap_refuted), timestamps shorter than the request (C71_short_stamps_refuted), byte counts that are no multiple of the item width (C71_unaligned_string_refuted), sparse values of different dimensions (C71_mixed_dimensions_refuted, C71_lost_features_refuted) and coordinates that are not int64 (C71_narrow_coordinates_refuted), and under the conditions of C04, C09, C41 and C42."
  },
  {
   "property": "C72",
   "status": "partial",
   "theorems": [
    "C72_uninterrupted",
    "C72_resume_partial",
    "C72_checkpoints",
    "C72_asked",
    "C72_latest_partial",
    "C72_progress_partial",
    "C72_saved_partial",
    "C72_rotation",
    "C72_evaluated",
    "C72_evaluated_training_partial",
    "C72_samples_partial",
    "C72_thousand_refuted",
    "C72_million_refuted",
    "C72_last_epoch_refuted",
    "C72_last_step_refuted",
    "C72_zero_refuted",
    "C72_schedule_refuted",
    "C72_optimizer_refuted",
    "C72_shuffled_refuted",
    "C72_evaluation_refuted",
    "C72_samples_refuted"
   ],
   "note": "Without interruption every batch of every epoch is trained once and in order with its optimizer and schedule (no condition but a non-zero save_ckpt_by_epochs). After any sequence of interrupted processes a process that finishes has the weights of an uninterrupted training, every checkpoint on the disk has the weights of its point, the loaded one never goes back and the last one is saved. Partial because the statement is false from epoch 1000 or step 10^6 on (C72_thousand_refuted, C72_million_refuted), when the last epoch is not a saved one (C72_last_epoch_refuted, C72_last_step_refuted), for optimizers with state, schedules and shuffled datasets (C72_optimizer_refuted, C72_schedule_refuted, C72_shuffled_refuted), for evaluation at the last step (C72_evaluation_refuted) and for max_samples below one step (C72_samples_refuted)."
  },
  {
   "property": "C73",
   "status": "partial",
   "theorems": [
    "C73_barrier_partial",
    "C73_no_deadlock_partial",
    "C73_bounded",
    "C73_late_leader_refuted",
    "C73_stale_refuted",
    "C73_same_tag_refuted"
   ],
   "note": "All interleavings of any number of tasks with any files left in the folder: sync returns only when every task has called it with that tag, the tasks cannot block each other and finish after a bounded number of file accesses. Partial because it needs the constructor of task 0 to return before another task calls sync, which nothing in the code ensures (C73_late_leader_refuted, C73_stale_refuted), and because a tag that is used again does not wait (C73_same_tag_refuted)."
  },
  {
   "property": "C74",
   "status": "partial",
   "theorems": [
    "C74_one_layer",
    "C74_two_layers_partial",
    "C74_batches_partial",
    "C74_depth_refuted",
    "C74_samples_refuted",
    "C74_empty_refuted"
   ],
   "note": "For every graph, batch and random choice: with one encoder, or two that sample the same number of neighbors, query followed by forward gives every node the embedding of its own sampled neighbors and their own sampled neighbors, also when nodes repeat. Partial because two encoders that sample different numbers raise or mix up the neighbors of different nodes (C74_samples_refuted), three encoders never work (C74_depth_refuted) and an empty batch raises (C74_empty_refuted)."
  },
  {
   "property": "C75",
   "status": "partial",
   "theorems": [
    "C75_sample_partial",
    "C75_burns_out",
    "C75_can_finish_partial",
    "C75_endless_refuted",
    "C75_clustering_refuted",
    "C75_size_refuted",
    "C75_all_nodes_refuted",
    "C75_empty_refuted"
   ],
   "note": "For every directed graph and all random numbers: the sample is a part of the graph whose nodes all have edges, it has sample_size nodes or one more, a fire burns out after a bounded number of turns and as long as enough nodes have edges the loop can end. Partial because the number of nodes can be one too many (C75_size_refuted), the loop never ends if sample_size exceeds the number of nodes with edges (C75_endless_refuted, C75_all_nodes_refuted) and an empty graph raises (C75_empty_refuted)."
  },
  {
   "property": "C76",
   "status": "partial",
   "theorems": [
    "C76_cover_partial",
    "C76_iterations",
    "C76_wiring",
    "C76_given",
    "C76_tf_passes_partial",
    "C76_tf_first_batch_refuted",
    "C76_split_refuted",
    "C76_csv_epochs_refuted",
    "C76_len_refuted",
    "C76_empty_share_refuted",
    "C76_shuffle_refuted"
   ],
   "note": "Over any number of ranks and DataLoader workers a torch dataset over a FileNodeSampler delivers every number of the files once per epoch, every iteration starts from the same sampler, the options of the dataset reach every sampler that has a parameter of that name, and a tf.data dataset over a sampler that creates iterators is complete in every pass. Partial because shuffled processes repeat and lose numbers (C76_shuffle_refuted), ranks without numbers raise (C76_empty_share_refuted), a split given by the user is forgotten with DataLoader workers (C76_split_refuted) and tf.data over CSVNodeSampler loses the first batch and all later epochs (C76_tf_first_batch_refuted)."
  },
  {
   "property": "C77",
   "status": "partial",
   "theorems": [
    "C77_dense_partial",
    "C77_sparse",
    "C77_agree_partial",
    "C77_convex",
    "C77_unique",
    "C77_local_dense",
    "C77_local_sparse",
    "C77_concat",
    "C77_average",
    "C77_header",
    "C77_att_encoder",
    "C77_encoder_mass_partial",
    "C77_isolated_refuted",
    "C77_weights_refuted",
    "C77_encoder_refuted",
    "C77_han_shared_refuted",
    "C77_han_layers_refuted"
   ],
   "note": "The attention heads of PyTorch and TensorFlow, dense and sparse, compute for every node with a neighbor the mean of its neighbors weighted by the exponentials of their scores; the dense and the sparse version agree; other nodes do not matter; heads are concatenated at their places or averaged; AttEncoder treats the nodes of a batch separately. Partial because a node without neighbors attends to all nodes in the dense version (C77_isolated_refuted), weights in the matrix are read as masks or not at all (C77_weights_refuted), GatEncoder normalises over the wrong dimension (C77_encoder_refuted; what it keeps is C77_encoder_mass_partial), and HANEncoder shares its heads between metapaths and fails with two layers. Exact arithmetic with an exponential that underflows."
  },
  {
   "property": "C78",
   "status": "proved",
   "theorems": [
    "C78_embeds"
   ],
   "note": "For any number of layers, fanouts and dimensions the TensorFlow GraphSAGE model of the examples with sage_conv.aggregate computes, in the order of the inputs, the embeddings of trees of nodes sampled from the graph, with the count of each layer at its hop; the shared table of distinct nodes, the positions and the reshapes are transparent."
  },
  {
   "property": "C79",
   "status": "partial",
   "theorems": [
    "C79_norm",
    "C79_symmetric",
    "C79_fixed",
    "C79_dense",
    "C79_sparse",
    "C79_agree_partial",
    "C79_weights_refuted",
    "C79_act",
    "C79_act_refuted",
    "C79_light",
    "C79_light_zero",
    "C79_light_deep",
    "C79_topk",
    "C79_topk_order",
    "C79_topk_few",
    "C79_kernels",
    "C79_lgcl_partial",
    "C79_residual_refuted",
    "C79_concat_partial",
    "C79_concat_refuted",
    "C79_het",
    "C79_lstm_partial",
    "C79_lstm_refuted",
    "C79_bias_refuted"
   ],
   "note": "Proved: normalisation and both graph convolutions, LightGCN, the greatest values and kernels of LGCL, LGCL on trees of any depth for one layer or widths that change, attention over types, LSTM output when rows without features come last. False in general and refuted: sparse and dense agree only for zeros and ones, the activation of GCNConv is not applied, LGCL with equal widths adds rows of the batch to those of other hops, concatenation fails for one node, a neighbor without features shifts the LSTM output, aggregators with bias cannot be made."
  },
  {
   "property": "C80",
   "status": "partial",
   "theorems": [
    "C80_constant",
    "C80_constant_warmup",
    "C80_linear",
    "C80_cosine",
    "C80_cosine_half_partial",
    "C80_restarts",
    "C80_restarts_full",
    "C80_restarts_fall",
    "C80_poly_warm",
    "C80_poly_decay",
    "C80_poly_end",
    "C80_poly_fails",
    "C80_poly_refuted",
    "C80_no_decay_refuted",
    "C80_cosine_end_refuted",
    "C80_trainer",
    "C80_resume_refuted"
   ],
   "note": "Proved: all factors are between zero and one, the warm-up is a line from zero, the full rate follows, every schedule falls the way it says and ends at its end value; the trainer never uses a rate outside and none of zero after its first batch. False in general and refuted: the polynomial schedule fails when all steps are warm-up steps, the cosine schedule rises after the last step, cosine schedules are at the top when no steps are left to decay in, a resumed training starts the schedule again."
  },
  {
   "property": "C81",
   "status": "partial",
   "theorems": [
    "C81_ranks",
    "C81_distinct",
    "C81_mrr_partial",
    "C81_evaluate_partial",
    "C81_nothing",
    "C81_tf",
    "C81_accuracy",
    "C81_matrix_refuted",
    "C81_per_step_refuted"
   ],
   "note": "Proved for every order that topk may return: ranks by sorting twice are the counts of greater scores, MRR of tensors (..., 1, N) and of evaluations over all batches is the mean of the reciprocal ranks, the TensorFlow MRR and masked accuracy count what they say. False in general and refuted: MRR of a matrix with several rows mixes ranks and labels of different rows, per-step metrics of batches of different sizes are not the metric of all rows."
  },
  {
   "property": "C82",
   "status": "partial",
   "theorems": [
    "C82_words",
    "C82_triletter",
    "C82_bert",
    "C82_sentence_partial",
    "C82_ascii",
    "C82_context",
    "C82_offline_partial",
    "C82_stored_matrix",
    "C82_embedding",
    "C82_pooler_partial",
    "C82_cut_refuted",
    "C82_ids_refuted",
    "C82_dimensions_refuted",
    "C82_tab_refuted",
    "C82_no_tokens_refuted"
   ],
   "note": "Proved for all texts, vocabularies and sizes: words and numbers of three letters, truncation of BERT tokens, replacement of all arrays of texts in nested contexts and of nothing else, the sum of vectors of a word. Partial: a feature whose text is cut within a character raises, stored tokens equal tokens of texts only for matrices of texts that fit, the pooler is a mean over tokens only if there is one and scores are moderate; each restriction has a refutation."
  },
  {
   "property": "C83",
   "status": "partial",
   "theorems": [
    "C83_graph",
    "C83_builds_partial",
    "C83_client_partial",
    "C83_partitions_refuted",
    "C83_no_training_refuted",
    "C83_unknown_refuted",
    "C83_http_refuted"
   ],
   "note": "Proved for all content and cites files, splits, threads, blocks and batches of the reader: the records given to the writers are exactly the papers and citations, without an edge for training that leaves the training set. Partial: building fails without a paper for training and, for Cora, on a citation of an unknown paper; a client of more than one partition sees a part of the lines; each has a refutation."
  },
  {
   "property": "C84",
   "status": "partial",
   "theorems": [
    "C84_graph",
    "C84_symmetric",
    "C84_builds",
    "C84_positions_partial",
    "C84_onehot",
    "C84_downsample",
    "C84_positions_refuted",
    "C84_no_label_refuted",
    "C84_onehot_refuted"
   ],
   "note": "Proved for all parsed graphs, maps of numbers, labels and features: nodes, types, features, numbers of parallel edges in both directions, node files. Partial: every node needs a class, Reddit's links are right only if numbers are positions, labels must not be negative; each has a refutation."
  },
  {
   "property": "C85",
   "status": "partial",
   "theorems": [
    "C85_faithful_partial",
    "C85_counts",
    "C85_values",
    "C85_read_partial",
    "C85_students_refuted",
    "C85_order_refuted",
    "C85_updates_refuted",
    "C85_unit_refuted",
    "C85_archive_refuted"
   ],
   "note": "The records are right exactly when the file has one student (C85_faithful_partial is an equivalence); every further student loses one edge, no interaction is lost. Missing: several students, where the statement is refuted."
  },
  {
   "property": "C86",
   "status": "partial",
   "theorems": [
    "C86_placed_partial",
    "C86_gap_refuted",
    "C86_first_refuted",
    "C86_masks_partial",
    "C86_small_refuted",
    "C86_random_split",
    "C86_per_class_refuted",
    "C86_types",
    "C86_files",
    "C86_overlap_refuted",
    "C86_split_refuted"
   ],
   "note": "Random splits, node types and node files are as stated for all inputs. Missing: test numbers with gaps (other than Citeseer's) and datasets with fewer than len(y) + 500 rows, where the statement is refuted (IndexError)."
  },
  {
   "property": "C87",
   "status": "partial",
   "theorems": [
    "C87_sound",
    "C87_ends",
    "C87_complete_partial",
    "C87_short_refuted",
    "C87_error_refuted",
    "C87_storage",
    "C87_whole_partial",
    "C87_meta_size_refuted",
    "C87_meta_partial",
    "C87_address_partial",
    "C87_no_port",
    "C87_colon_refuted",
    "C87_port_refuted",
    "C87_shared_meta_partial",
    "C87_shared_meta_refuted"
   ],
   "note": "A read that succeeds is right for all answers of libhdfs, and it succeeds when calls return at least half a buffer. Missing: smaller answers, errors that pass, addresses without a port and with a colon, ports above 65535, several processes on a host: there the statement is refuted."
  },
  {
   "property": "C88",
   "status": "partial",
   "theorems": [
    "C88_list",
    "C88_table_partial",
    "C88_table_any",
    "C88_table_refuted",
    "C88_words",
    "C88_words_back",
    "C88_words_refuted",
    "C88_word_table_partial",
    "C88_flag",
    "C88_vector",
    "C88_matrix",
    "C88_shape_refuted",
    "C88_partitions_partial",
    "C88_share_partial",
    "C88_group_partial",
    "C88_group_any",
    "C88_start_partial",
    "C88_outside_refuted",
    "C88_wrap_refuted"
   ],
   "note": "Conversions are inverses of writing and the servers of a group share the partitions exactly. Missing: empty rows of tables, shapes of written arrays, indices of servers and partitions out of range: there the statement is refuted."
  },
  {
   "property": "C89",
   "status": "partial",
   "theorems": [
    "C89_load_partial",
    "C89_order_partial",
    "C89_any_node",
    "C89_no_tab",
    "C89_lines",
    "C89_line_ends",
    "C89_torch_partial",
    "C89_torch_total",
    "C89_outside_refuted",
    "C89_glob_refuted",
    "C89_no_width_refuted",
    "C89_steps_refuted",
    "C89_scalar_refuted",
    "C89_formats_refuted"
   ],
   "note": "Every file written is read back, the last record of a node wins. Missing: nodes out of range, embeddings without elements, workers that disagree, vectors with one id, the limit of steps of the TF1 trainer: there the statement is refuted. Formatting and reading of floats are arguments."
  },
  {
   "property": "C90",
   "status": "partial",
   "theorems": [
    "C90_replicas",
    "C90_ends_iff",
    "C90_no_deadlock_partial",
    "C90_one_process_partial",
    "C90_batches",
    "C90_uneven_refuted",
    "C90_checkpoint_refuted",
    "C90_eval_refuted",
    "C90_sizes_refuted",
    "C90_clip",
    "C90_horovod_partial",
    "C90_horovod_clip_refuted",
    "C90_metric_partial",
    "C90_metric_refuted",
    "C90_loss",
    "C90_loss_refuted"
   ],
   "note": "Replicas are equal in all executions; the ranks end exactly if their operations match, and then train like one process on merged batches of one size. Missing: different numbers or sizes of batches, checkpoints that are not shared, clipping with Horovod, metrics of uneven ranks, the loss of an interval: there the statement is refuted."
  },
  {
   "property": "C91",
   "status": "partial",
   "theorems": [
    "C91_answer_partial",
    "C91_out_edges_partial",
    "C91_count",
    "C91_weights_refuted",
    "C91_default_type_refuted",
    "C91_out_strategies_refuted",
    "C91_no_edge_refuted",
    "C91_tuple_refuted",
    "C91_matrix_refuted",
    "C91_metapath_refuted",
    "C91_scalar_refuted"
   ],
   "note": "Ids, and weights, types and timestamps where a strategy has them, are those of the engine cell by cell. Missing: weights of the random strategies, the default type by weight, types of ppr-go, topk, matrices of nodes, ordered metapaths: there the statement is refuted."
  },
  {
   "property": "C92",
   "status": "partial",
   "theorems": [
    "C92_attempts",
    "C92_local_once",
    "C92_options_partial",
    "C92_durations",
    "C92_broken",
    "C92_no_options",
    "C92_wait_partial",
    "C92_total_wait",
    "C92_cells",
    "C92_max_refuted",
    "C92_multiplier_refuted",
    "C92_duration_refuted",
    "C92_fraction_refuted",
    "C92_stale_refuted"
   ],
   "note": "The attempts and the answer are proved for all requests and policies. Missing: waits that follow the policy and durations that are not whole seconds below a minute: there the statement is refuted."
  },
  {
   "property": "C93",
   "status": "partial",
   "theorems": [
    "C93_latest_partial",
    "C93_past_partial",
    "C93_destinations",
    "C93_memory",
    "C93_epoch_partial",
    "C93_split_partial",
    "C93_loss",
    "C93_loss_mean_partial",
    "C93_test",
    "C93_repeated_source_refuted",
    "C93_order_refuted",
    "C93_future_refuted",
    "C93_fed_refuted",
    "C93_new_students_refuted",
    "C93_skipped_refuted",
    "C93_unsorted_refuted"
   ],
   "note": "Proved for every converted temporal graph whose weights sum exactly, every batch and every sequence of batches: positions, the interactions each embedding is computed from, that they and the memory are from the past. Missing: all interactions before a row when its source occurs earlier in the batch, rows out of order, destinations that are sources too: there the statement is refuted."
  },
  {
   "property": "C94",
   "status": "partial",
   "theorems": [
    "C94_triples",
    "C94_count",
    "C94_dead_ends",
    "C94_batches",
    "C94_loss",
    "C94_loss_mean_partial",
    "C94_scores",
    "C94_loss_order",
    "C94_padding_refuted",
    "C94_ranking_refuted",
    "C94_types_refuted",
    "C94_files_refuted",
    "C94_inference_refuted"
   ],
   "note": "Proved for every answer of the graph and every number of types and hops: which triples are in which list, their number, the number of batches, the loss with its padding. Missing: the mean over triples when lists differ in length, types of nodes where edge types differ from them, ranking by the scores, start nodes from files: there the statement is refuted."
  },
  {
   "property": "C95",
   "status": "partial",
   "theorems": [
    "C95_moved",
    "C95_moves_iff",
    "C95_moves_partial",
    "C95_encoded",
    "C95_terms_partial",
    "C95_terms_nested",
    "C95_types_partial",
    "C95_known",
    "C95_known_once",
    "C95_dim_partial",
    "C95_tuple_refuted",
    "C95_plain_refuted",
    "C95_tensor_refuted",
    "C95_terms_refuted",
    "C95_mask_refuted",
    "C95_positions_refuted",
    "C95_empty_refuted",
    "C95_dim_refuted"
   ],
   "note": "Proved for all nested data: what is moved and encoded, exactly when it succeeds, and which encoder gives which embedding. Missing: tuples of tensors, plain data in dictionaries, term tensors of nested data, mask and positions of several types: there the statement is refuted."
  },
  {
   "property": "C96",
   "status": "partial",
   "theorems": [
    "C96_edges_partial",
    "C96_pairs",
    "C96_ids_iff",
    "C96_ids_error",
    "C96_ids_small",
    "C96_loss",
    "C96_hits",
    "C96_shape",
    "C96_ids_refuted",
    "C96_second_hop_refuted",
    "C96_test_refuted",
    "C96_squeeze_refuted"
   ],
   "note": "Proved for every converted graph and every list of nodes with ids of at most 24 significant bits, which is shown to be exactly the ids that arrive unchanged, and for all losses and predictions. Missing: larger ids, edges of nodes that are not listed, the score on test data: there the statement is refuted."
  },
  {
   "property": "C97",
   "status": "partial",
   "theorems": [
    "C97_link_partial",
    "C97_labels",
    "C97_inference",
    "C97_steps",
    "C97_rows",
    "C97_unsup_partial",
    "C97_unsup_rows_partial",
    "C97_shared_refuted",
    "C97_default_refuted",
    "C97_isolated_refuted"
   ],
   "note": "Proved for any number of layers, any aggregators, any sampler that answers with allowed neighbors, all edges and labels, and ids with a row in the table. Missing: own rows for ids from 1 (the last id shares the row of missing nodes), positives of nodes without neighbors, the default of the constructor: refuted."
  },
  {
   "property": "C98",
   "status": "partial",
   "theorems": [
    "C98_ids",
    "C98_neighbors_partial",
    "C98_build",
    "C98_features_partial",
    "C98_missing",
    "C98_loader_partial",
    "C98_loader_refuted",
    "C98_collaborations",
    "C98_train_lines",
    "C98_test_lines",
    "C98_balanced",
    "C98_draws",
    "C98_venue",
    "C98_class",
    "C98_outside",
    "C98_ranges",
    "C98_untyped_refuted",
    "C98_f1_partial",
    "C98_f1_refuted",
    "C98_ids_refuted",
    "C98_features_refuted",
    "C98_ranges_refuted",
    "C98_interval_refuted",
    "C98_last_refuted",
    "C98_leak_refuted",
    "C98_test_refuted",
    "C98_ends_refuted",
    "C98_columns_refuted",
    "C98_venue_refuted"
   ],
   "note": "Proved for all graphs, papers, files, batch sizes and random choices: neighbors and features of known nodes, collaborations of both files, labels, balance, venues, F1 with some true positive. Missing: nodes without intervals and the id after the last row, the last node of a file, labels 0 that never collaborate, the last feature, F1 without true positives: each refuted."
  },
  {
   "property": "C99",
   "status": "partial",
   "theorems": [
    "C99_attention_partial",
    "C99_layer",
    "C99_padding_partial",
    "C99_unmasked",
    "C99_checkpoint",
    "C99_layers_partial",
    "C99_embed",
    "C99_embed_ok",
    "C99_pooled",
    "C99_heads",
    "C99_focal_partial",
    "C99_mask_refuted",
    "C99_none_refuted",
    "C99_layers_refuted",
    "C99_empty_refuted",
    "C99_focal_refuted"
   ],
   "note": "Proved for any number of layers, heads, tokens and padded tokens, any dense layers, normalisations and activations of rows, any exponential that underflows below -1000, all flags. Missing: scores 10000 above the others, masks that show nothing, the list of layers with recomputed activations, focal weights in a vector: refuted."
  }
 ]
}