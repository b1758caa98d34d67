{
 "claims": [
  {
   "property": "C01",
   "status": "proved",
   "theorems": [
    "C01_read_at_is_slice_of_concatenation"
   ],
   "note": "Segments are arbitrary io.ReaderAt functions obeying the contract for their bytes (they may answer differently per call); declared size = real size. io.EOF together with a completely filled buffer is allowed only at the very end, as io.ReaderAt permits. Running int64 sum of sizes assumed not to overflow."
  },
  {
   "property": "C02",
   "status": "proved",
   "theorems": [
    "C02_history_refines_cursor"
   ],
   "note": "Includes int64 wrap of Seek additions; total content at most MaxInt64 bytes. Out-of-range slice indexes and non-termination are explicit outcomes of the model and excluded by the theorem."
  },
  {
   "property": "C03",
   "status": "partial",
   "theorems": [
    "C03_short_inner_segment_never_eof_partial",
    "C03_eof_means_all_but_last_complete_partial",
    "C03_truncated_last_segment_refuted"
   ],
   "note": "As stated it is false: C03_truncated_last_segment_refuted shows a truncated LAST segment ends in plain io.EOF (multi_read_at_closer.go:161-170: EOF with 0<n<rem on the last index is passed through). Proved: any other short segment is never reported as EOF, and EOF certifies all but the last segment (Read path)."
  },
  {
   "property": "C04",
   "status": "proved",
   "theorems": [
    "C04_any_history_returns_own_slice",
    "C04_fault_free_history_is_random_access",
    "C04_contiguous_reads_open_once"
   ],
   "note": "Streams, open and close may fail at any call. Source content fixed; size = content length. One-open claim for runs staying strictly inside the content without faults."
  },
  {
   "property": "C05",
   "status": "proved",
   "theorems": [
    "C05_cancellable_history"
   ],
   "note": "ctx.Err is assumed monotone (context contract)."
  },
  {
   "property": "C06",
   "status": "proved",
   "theorems": [
    "C06_close_calls_every_member_and_reports_every_error",
    "C06_gather_nil_iff_all_nil_and_keeps_errors"
   ],
   "note": "Error values modelled as trees of leaf/prefixed/gathered; errors.Is against leaves. Formatting of messages not modelled."
  },
  {
   "property": "C07",
   "status": "proved",
   "theorems": [
    "C07_accepts_exactly_the_grammar",
    "C07_parse_inverts_print"
   ],
   "note": "Byte-level model. strings.TrimSpace and strings.EqualFold are modelled on ASCII (the model treats non-ASCII bytes as plain bytes). An unknown complete length ('/*') is refused by the code and by the model."
  },
  {
   "property": "C08",
   "status": "proved",
   "theorems": [
    "C08_bytes_are_the_ranges_asked_for_or_an_error",
    "C08_whole_answer_is_refused",
    "C08_prior_knowledge"
   ],
   "note": "For arbitrary servers (any status, headers, body, failure), any earlier history of ReadAt/Probe/Close. Calls are sequential in this model; concurrent pinning is C09. Content-Encoding check and header map are single fields of the response; net/http itself is the oracle. int64 arithmetic is wrapped explicitly."
  },
  {
   "property": "C09",
   "status": "proved",
   "theorems": [
    "C09_pinned_identity_never_changes",
    "C09_verdicts_are_right",
    "C09_accepted_responses_agree",
    "C09_verification_is_bounded",
    "C09_probing"
   ],
   "note": "Interleaving of any number of pinOrVerify calls at the granularity of the atomic Load and CompareAndSwap, pointer identity modelled by allocation numbers. The rest of a read touches no shared state except the lane (C10)."
  },
  {
   "property": "C10",
   "status": "proved",
   "theorems": [
    "C10_at_most_one_stream_request",
    "C10_in_order_reading_is_one_request"
   ],
   "note": "Lane state machine inside the reader model; the dead flag and the state are merged (a detached close only delays releasing the body). That lane reads return the object's bytes is C11_section_reads_as_the_object, whose starting states include readers with a lane. Several goroutines inside the lane at once are not modelled (the code serialises them with mu)."
  },
  {
   "property": "C11",
   "status": "proved",
   "theorems": [
    "C11_section_reads_as_the_object",
    "C11_section_bounds",
    "C11_whole_object"
   ],
   "note": "Includes negative and overflowing n. The server may fail, cut bodies short or answer other ranges, but must be truthful about one fixed object; prior knowledge, if it states a size, states the true one. The probe asks for byte 0 by design and is outside the window claim."
  },
  {
   "property": "C12",
   "status": "partial",
   "theorems": [
    "C12_request_errors_do_not_disclose",
    "C12_own_messages_do_not_disclose",
    "C12_what_is_shown",
    "C12_cause_survives_redaction",
    "C12_nested_url_error_refuted",
    "C12_fileserver_unparsable_url_refuted"
   ],
   "note": "Non-interference for every parser/printer. Refuted in two corners: a *url.Error nested inside another keeps its URL (redact.go:46-50 carries ue.Err over), and fileserver's redactURLError echoes an unparsable URL (client.go:130-135). The Opaque part is public in this model: 'http:user:pass@host' (no slashes) is printed verbatim by validateURL's error."
  },
  {
   "property": "C13",
   "status": "proved",
   "theorems": [
    "C13_count_is_least_cover",
    "C13_sizes_full_except_last",
    "C13_sizes_sum_to_total",
    "C13_expected_size_is_slice_length",
    "C13_near_max_int64_refuted"
   ],
   "note": "For sizes with total + chunkSize within int64 (sizes_fit). Outside that range chunkCount's sum wraps; C13_near_max_int64_refuted exhibits it."
  },
  {
   "property": "C14",
   "status": "proved",
   "theorems": [
    "C14_open_streams_tail",
    "C14_open_bounds",
    "C14_drain_is_tail_with_one_get_per_chunk"
   ],
   "note": "The reader is the composition of the MultiRead and SeqRead models, so Read results are those of the modelled code. Chunk objects must hold the file's slices and bodies must obey io.Reader; Get, Close and Read may fail at any time. A server that truncates the last chunk object is C03's refutation."
  },
  {
   "property": "C15",
   "status": "partial",
   "theorems": [
    "C15_state_counts_only_stored_bytes",
    "C15_undisturbed_session_completes",
    "C15_progress_never_lost",
    "C15_other_objects_untouched",
    "C15_source_ending_early_reported_refuted",
    "C15_surplus_reported_refuted"
   ],
   "note": "Proved for every history of sessions, PUTs that leave nothing or a prefix, failing Stat, temp file and source errors. Refuted: Append returns nil when the source ends inside the last chunk (a short chunk is stored) or has surplus bytes. Chunk names are assumed distinct, and a stored chunk of the right size that predates the sessions is assumed to hold the right bytes (content-addressed names)."
  },
  {
   "property": "C16",
   "status": "proved",
   "theorems": [
    "C16_history_single_version",
    "C16_pull_outcome",
    "C16_resume_keeps_progress",
    "C16_undisturbed_pull_commits"
   ],
   "note": "Every history of pulls, each step able to fail or crash (including partial writes). Sources are honest about ETags (non-empty, no surrounding white space, since the sidecar is read back trimmed). The final file is a version reported by a call whose expected ETag, size and hooks it meets; progress is kept on resume; an undisturbed pull commits."
  },
  {
   "property": "C17",
   "status": "partial",
   "theorems": [
    "C17_no_validators_mixes_refuted",
    "C17_unlabelled_part_trusted_refuted",
    "C17_unchanging_source_partial"
   ],
   "note": "False as stated: two concrete histories with a nil error and a mixed file are proved (no ETags at all; a part file without sidecar trusted because expected.ETag equals the source's). Proved instead: with an unchanging source, with or without ETags, only its bytes ever appear."
  },
  {
   "property": "C18",
   "status": "proved",
   "theorems": [
    "C18_final_untouched",
    "C18_existing_size_checked",
    "C18_crash_absent_or_complete"
   ],
   "note": "Unconditional: any source, any hooks, any failure or crash. An existing final file means no file changes at all; otherwise the final name stays absent until the rename and then holds a whole answer."
  },
  {
   "property": "C19",
   "status": "partial",
   "theorems": [
    "C19_history_partial",
    "C19_push_outcome_partial",
    "C19_committed_untouched",
    "C19_undisturbed_push_partial",
    "C19_empty_push_fails_refuted",
    "C19_empty_push_publishes_stale_refuted",
    "C19_torn_sidecar_mixes_refuted"
   ],
   "note": "Proved for non-empty files when no failure falls inside the rewriting of the sidecar. Outside that it is false, with concrete histories: empty files fail or publish stale bytes with a nil error; a crash between truncating and writing the sidecar on resume lets the next version be mixed in."
  },
  {
   "property": "C20",
   "status": "partial",
   "theorems": [
    "C20_steps_touch_only_temp_until_publish",
    "C20_random_policy_crash_states",
    "C20_dir_policy_crash_states",
    "C20_copyfs_as_write",
    "C20_copy_produces_source",
    "C20_copy_complete",
    "C20_power_loss_with_sync",
    "C20_power_loss_without_sync_refuted",
    "C20_temp_can_be_target_refuted"
   ],
   "note": "Every crash point, failing call, hook and operation, with interference by other processes on other names; both policies; and power loss, with SyncHook as last post hook. Restriction: the target exists or its name is at most 240 bytes. Outside that the temporary name can equal the target (proved). Without SyncHook a power loss can leave neither content (proved)."
  },
  {
   "property": "C21",
   "status": "proved",
   "theorems": [
    "C21_error_restores",
    "C21_error_restores_any_name",
    "C21_panic_leaves_temp_refuted",
    "C21_copyfs_open_failure_leaves_dir_refuted"
   ],
   "note": "Every failing hook, write, Close, Rename and RemoveAll. Also proved: a panicking hook leaves the temporary file, and CopyFs leaves its directory when opening it fails."
  },
  {
   "property": "C22",
   "status": "partial",
   "theorems": [
    "C22_random_policy_recognises_its_files",
    "C22_random_policy_refuses_root",
    "C22_random_match_exact",
    "C22_dir_policy_recognises_its_files_partial",
    "C22_dir_policy_pattern",
    "C22_dir_policy_blind_in_dot_refuted",
    "C22_dir_match_exact",
    "C22_dir_cleanup_removes_only_own",
    "C22_dir_cleanup_removes_own",
    "C22_dir_cleanup_enters_ancestors",
    "C22_dir_cleanup_absolute_refuted"
   ],
   "note": "Every target and random value, byte exact. The random policy is proved in full. The directory policy is proved except when its directory is . or /, where it never matches its own files (refuted); its clean-up walk stops at / when the directory is absolute (refuted)."
  },
  {
   "property": "C23",
   "status": "proved",
   "theorems": [
    "C23_terminates_within_bound",
    "C23_names_match_pattern",
    "C23_open_file_random_only_creates",
    "C23_open_file_random_alone",
    "C23_mkdir_random_keeps_existing",
    "C23_mkdir_random_failure_leaves_dir_refuted",
    "C23_random_part_injective"
   ],
   "note": "Every random sequence, set of existing names and interference by other processes between attempts. Also proved: a failing MkdirRandom can leave the directory it made."
  },
  {
   "property": "C24",
   "status": "partial",
   "theorems": [
    "C24_ends_local_and_link_free",
    "C24_outside_refused",
    "C24_agrees_with_kernel_walk_partial",
    "C24_linked_parent_refuted",
    "C24_finds_every_reachable_name_partial",
    "C24_long_walks_refused_partial",
    "C24_what_a_failure_says",
    "C24_every_tree_answers",
    "C24_misses_behind_linked_parent_refuted",
    "C24_forty_links_refuted"
   ],
   "note": "Proved for every file system and name: ResolvePath ends, a result is local, free of symlinks and found over fewer than 40 links; names outside are refused. Agreement with a kernel walk (same end, exactly the counted links, result reached without links) is proved where link targets are clean and either none climbs or none passes through another link. Refuted in general: a target found behind a linked directory is joined lexically, so another file can be named (a->b/c, b->p/d, p/d/c->../x resolves to x instead of p/x), or a reachable one missed. Under the same restriction completeness is proved both ways: a local name is resolved exactly when a kernel walk of it ends over fewer than 40 links, and a walk that ends over 40 or more is refused with ELOOP. On every file system a system error comes from Lstat or ReadLink and ErrPathEscapes from the name or a link that leads out. Refuted: a walk of exactly 40 links, which Linux follows, is refused although the constant is meant to be Linux's limit."
  },
  {
   "property": "C25",
   "status": "proved",
   "theorems": [
    "C25_longest_rune_aligned_prefix",
    "C25_valid_text_keeps_whole_characters",
    "C25_doc_valid_prefix_refuted"
   ],
   "note": "All byte strings and every n, over a byte-exact model of utf8.DecodeRune. Also proved: the doc comment's promise of a valid result is false for invalid input, which is returned as is."
  },
  {
   "property": "C26",
   "status": "partial",
   "theorems": [
    "C26_head_yields_every_prefix",
    "C26_tail_yields_reverse_partial",
    "C26_heads_distinct",
    "C26_vroot_head_relative",
    "C26_tail_of_root_twice_refuted"
   ],
   "note": "PathFromHead proved for every path, including the vroot copy on relative paths. PathFromTail proved for every path except the root: PathFromTail of / yields / twice, proved as a refutation."
  },
  {
   "property": "C27",
   "status": "proved",
   "theorems": [
    "C27_unix_keeps_stored_bits",
    "C27_plan9_keeps_stored_bits",
    "C27_windows_permissions_as_reported",
    "C27_masks_idempotent"
   ],
   "note": "All modes, bit by bit. The Unix and Plan 9 masks keep exactly the documented bits; the Windows mask gives the permission bits stat reports and keeps the other bits."
  },
  {
   "property": "C28",
   "status": "partial",
   "theorems": [
    "C28_copy_all_frame",
    "C28_copy_all_reproduces_tree_partial",
    "C28_paths_stay_inside",
    "C28_copy_path_frame",
    "C28_copy_path_copies_listed_partial",
    "C28_copy_path_nested_root_refuted",
    "C28_directory_over_file_refuted",
    "C28_dotdot_root_refuted"
   ],
   "note": "Every finite tree, path list, failing call and short copy; the destination does not follow symlinks. Frames hold whatever fails. Reproduction is proved when nothing but directories is where the source has directories and no ReadDir error was ignored; an existing file keeps its mode. Refuted: a source directory over a destination file reports success, CopyPath with a root of two or more elements always fails, and the root .. is accepted and written to."
  },
  {
   "property": "C29",
   "status": "partial",
   "theorems": [
    "C29_path_shows_last_entry_partial",
    "C29_directory_lists_each_name_once_partial",
    "C29_root",
    "C29_missing_directory_entry_panics_refuted",
    "C29_name_with_two_dots_is_dropped_refuted",
    "C29_listing_disagrees_with_lookup_refuted"
   ],
   "note": "Lookup is proved for archives without names that begin with two dots: last kept entry wins, a directory above other entries is a directory. Listings are proved equal to the lookups, each name once, for archives that hold an entry for every directory. Refuted without that: Lstat and ReadDir of an implicit directory dereference a nil header, and a file used as a directory by another entry stays in the listing as a file. Refuted with such names: an entry named ..data, inside the root and a valid path, is dropped."
  },
  {
   "property": "C30",
   "status": "partial",
   "theorems": [
    "C30_open_follows_walk_partial",
    "C30_open_ends_without_panic_partial",
    "C30_lstat_keeps_last_link_partial",
    "C30_rooted_walk_stays_inside_partial",
    "C30_invalid_names",
    "C30_hard_link_chain_panics_refuted",
    "C30_hard_link_below_itself_never_ends_refuted",
    "C30_link_to_parent_panics_refuted",
    "C30_link_to_dot_drops_rest_refuted"
   ],
   "note": "Proved where hard links name a regular file by a plain path and symlink targets are neither . nor end in ..: Open ends, never panics, agrees in both directions with a path walk of at most 40 links, Lstat keeps the last link, and with the root option the walk stays inside. Outside that refuted: a hard link to a hard link panics, a hard link below itself never ends, a symlink to .. panics, a symlink to . drops the rest of the path."
  },
  {
   "property": "C31",
   "status": "proved",
   "theorems": [
    "C31_reads_the_described_file",
    "C31_described_file_is_unique",
    "C31_body_end"
   ],
   "note": "Every legal map (as archive/tar checks it), any archive around the stored bytes, any history of Read, ReadAt and Seek; composed with the MultiRead model. The archive's ReaderAt does not fail. BodyEnd is proved to be the end of the stored bytes."
  },
  {
   "property": "C32",
   "status": "proved",
   "theorems": [
    "C32_base256_is_twos_complement",
    "C32_base256_roundtrip",
    "C32_octal_accepts_exactly",
    "C32_octal_field_exact",
    "C32_octal_roundtrip",
    "C32_long_octal_overflow_refuted",
    "C32_sparse_map_0x1_roundtrip",
    "C32_sparse_map_1x0_roundtrip",
    "C32_sparse_map_old_roundtrip",
    "C32_integers_exactly",
    "C32_sparse_map_0x1_exactly",
    "C32_sparse_map_1x0_exactly"
   ],
   "note": "Every base-256 and octal field of the sizes tar uses, exact acceptance, plus round trips of the three sparse-map encodings. In octal fields of 21 or more bytes (tar has none) a value above int64 is accepted and turns negative; proved as a refutation."
  },
  {
   "property": "C33",
   "status": "partial",
   "theorems": [
    "C33_batches_are_the_listing_once",
    "C33_tar_handle",
    "C33_tar_directory",
    "C33_tar_entry_lost_refuted",
    "C33_synthfs_handle_partial",
    "C33_overlayfs_handle_partial",
    "C33_huge_batch_panics_refuted",
    "C33_sftp_handle_partial",
    "C33_sftp_rewind_refuted",
    "C33_overlayfs_lists_as_of_opening_or_rewinding_partial",
    "C33_reads_page_through_one_listing",
    "C33_sftp_lists_as_of_the_first_read_partial",
    "C33_synthfs_removal_hides_a_neighbour_refuted",
    "C33_closed_handles_list_nothing",
    "C33_seeks",
    "C33_sftp_lists_when_closed_refuted"
   ],
   "note": "tarfs proved for every history (in directories of archives with all directory entries; otherwise an entry can be lost, refuted). synthfs and overlayfs proved for histories in which cursor + n stays an int64; a huge n after a partial read panics (refuted). sftpfs proved without rewinds; Seek does not restart its listing (refuted). tarfs treats every Seek except a valid SeekEnd as a rewind, also failing ones. While the directory changes, overlayfs pages through the listing taken at the first use after opening or rewinding (proved for every history); synthfs counts from the start of the present listing, so removing an entry already read hides its neighbour (refuted). A closed handle lists nothing in tarfs, synthfs and overlayfs; refuted for sftpfs, whose directory handle asks the client by path and still lists after Close."
  },
  {
   "property": "C34",
   "status": "partial",
   "theorems": [
    "C34_walk_ends",
    "C34_reports_what_is_reachable",
    "C34_once_per_path",
    "C34_stops_when_told",
    "C34_ignored_error_hides_siblings_refuted",
    "C34_skipdir_on_lost_name_reaches_the_parent_refuted"
   ],
   "note": "Every file system (Lstat, Stat, ReadDir, ResolveSymlink and inode oracles), every callback for termination, once-per-path and stopping; callbacks that answer nil or SkipDir, from the call alone, for the exact set of calls (what SkipDir leaves out included). Termination needs every directory to have a key (an inode or a known real path) out of a finite set. Exactness assumes listed names can be looked at; refuted otherwise: an ignored Lstat error on a child hides the names after it, and SkipDir for it ends the loop of the directory above."
  },
  {
   "property": "C35",
   "status": "partial",
   "theorems": [
    "C35_forwarded_paths_stay_below",
    "C35_inside_calls_are_forwarded",
    "C35_remove_of_root_is_forwarded_refuted"
   ],
   "note": "All names and all methods; symlink targets are data, not paths, and links are left to the inner file system. RemoveAll of the view's root is refused, but Remove of it is forwarded to the prefix (refuted)."
  },
  {
   "property": "C36",
   "status": "proved",
   "theorems": [
    "C36_only_reads_reach_the_inner_fs",
    "C36_reads_are_passed_on"
   ],
   "note": "Every history over roots and files opened through the view, every flag value and every platform's flag constants. The inner file system is an oracle; Fd hands out the raw descriptor and is counted as a read."
  },
  {
   "property": "C37",
   "status": "proved",
   "theorems": [
    "C37_file_is_an_array_with_holes",
    "C37_one_call",
    "C37_truncate_always_returns_refuted"
   ],
   "note": "Every history over any number of handles, with the backing array, capacity and reslicing of the code; what append leaves as spare capacity is arbitrary but zeroed, as Go's runtime documents. A size beyond Go's allocation limit makes the call panic instead of failing (proved); such a panic leaves the content alone."
  },
  {
   "property": "C38",
   "status": "partial",
   "theorems": [
    "C38_one_handle_loses_nothing_partial",
    "C38_two_handles_lose_a_write_refuted"
   ],
   "note": "Proved for appends through one handle (any number of goroutines and interleavings of the locked sections). Refuted for two handles: both read the length before either writes."
  },
  {
   "property": "C39",
   "status": "proved",
   "theorems": [
    "C39_inside_the_root",
    "C39_parent_inside_the_root",
    "C39_sub_root_inside",
    "C39_is_path_resolution"
   ],
   "note": "Every history of calls through every root and sub-root, directories renamed under open sub-roots included. Nodes are a heap of numbered objects as in the code; the methods hold the state lock, so each is one step. Resolution is shown equal, in both directions, to a path walk of at most 40 links that goes up only to the directory listing the current one and never above the root."
  },
  {
   "property": "C40",
   "status": "partial",
   "theorems": [
    "C40_stays_a_tree",
    "C40_listing_is_lookup",
    "C40_names_stay_proper",
    "C40_ends_and_no_cycles_partial",
    "C40_effects",
    "C40_touches_only_what_it_names_partial",
    "C40_mkdir_all",
    "C40_chmod",
    "C40_no_cycles_refuted",
    "C40_ends_refuted",
    "C40_failing_create_changes_nothing_refuted"
   ],
   "note": "The tree invariant, the listing/lookup agreement and the effect of each call are proved for every history. Termination, absence of cycles and the frame (nothing but the named entry changes) are proved for histories in which no directory is renamed to a place inside itself. Refuted without that: a directory can be made to contain itself, and RemoveAll on it through a sub-root recurses for ever. Refuted too: a failing create leaves its entry when the new view does not open."
  },
  {
   "property": "C41",
   "status": "partial",
   "theorems": [
    "C41_failure_changes_nothing",
    "C41_moves_one_subtree_partial",
    "C41_refuses_below_itself_refuted"
   ],
   "note": "Failure changes nothing: proved. A success moves one subtree with all below it and leaves every other path alone: proved when the new place is not inside the moved directory. Refuted otherwise: Rename(a, a/b/c) succeeds and the whole of a is listed nowhere."
  },
  {
   "property": "C42",
   "status": "partial",
   "theorems": [
    "C42_parents",
    "C42_touches_only_below",
    "C42_keeps_existing_partial",
    "C42_merge_keep_is_gentle",
    "C42_fail_on_conflict",
    "C42_in_place",
    "C42_merge_overwrite_places",
    "C42_something_in_place",
    "C42_add_file",
    "C42_merge_keep_removes_refuted",
    "C42_keep_adds_refuted",
    "C42_dangling_parent_refuted"
   ],
   "note": "Every existing tree reached by a history without renames of a directory into itself, every source tree (proper distinct names, any entry able to fail to be looked at, listed, opened or read) and every AddFunc. MergeOverwrite and FailOnConflict: in full. MergeKeep and other AddFuncs without Override: everything existing is kept except leaves where the source has a directory and the answer is Keep, and dangling links named as a parent. Both are refuted as stated: MergeKeep replaces a file by a directory, and a dangling link becomes a directory. Refuted too: Keep where nothing exists adds the entry, against the doc comment."
  },
  {
   "property": "C43",
   "status": "partial",
   "theorems": [
    "C43_released_with_the_last_name_partial",
    "C43_hard_link_refuted",
    "C43_closed_once_refuted",
    "C43_self_rename_refuted",
    "C43_keep_over_file_leaks_refuted",
    "C43_file_over_directory_leaks_refuted"
   ],
   "note": "Proved for every history without Link and without renames of a name to itself: a listed file's view is open, a file listed nowhere has had its view closed exactly once (for AddFuncs that do not answer Keep about a directory coming in over a file), no view is closed twice. Refuted otherwise: removing one of two hard-linked names closes the view under the other and removing the second closes it again; Rename(f, f) closes f's view; Keep for a directory over a file, and a file over a directory, leave views open for ever."
  },
  {
   "property": "C44",
   "status": "partial",
   "theorems": [
    "C44_lookup_is_the_merged_tree",
    "C44_listing_is_the_merged_tree",
    "C44_search_from_a_layer",
    "C44_not_a_directory",
    "C44_merged_view_is_a_tree",
    "C44_visible_iff_listed_refuted"
   ],
   "note": "Lookup and listing are proved equal to an independently defined merged tree, for every stack of layers and marks, where no reachable layer holds a symlink on the way to the name; backends may fail. Refuted without that: a lower layer's symlink that stands under a shallower layer's directory is followed by the lookup but not by the listing, so a name can be found that no directory lists."
  },
  {
   "property": "C45",
   "status": "proved",
   "theorems": [
    "C45_remove_takes_exactly_the_subtree",
    "C45_remove_all_takes_exactly_the_subtree",
    "C45_interrupted_removal",
    "C45_full_directory_refused",
    "C45_remove_succeeds"
   ],
   "note": "Remove/RemoveAll over the merged view spec: the end state's view is the old view minus the subtree, with layer and node of every other name (wf only). Interrupted or failing removals are characterised at every persistent step; non-empty directories are refused with no step taken; success is proved when the layers answer. 'After restart' is the same stack because marks are part of it (C51 relates them to the store)."
  },
  {
   "property": "C46",
   "status": "proved",
   "theorems": [
    "C46_new_directory_is_empty",
    "C46_mkdir_all",
    "C46_new_file",
    "C46_new_symlink",
    "C46_new_link",
    "C46_creation_succeeds"
   ],
   "note": "Mkdir, MkdirAll, file creation, Symlink and Link against the merged view. Hypotheses: the top's opaque marks stand on directories it holds (inv, itself an invariant, C50), and no symlink of a lower hides behind a directory on the way (plain_at/clear_way), which is where lookup leaves the merged tree (C44 refuted). Link excludes a new name below the old one. 'Nothing else changes' up to directories copied into the top."
  },
  {
   "property": "C47",
   "status": "partial",
   "theorems": [
    "C47_copy_up_keeps_the_tree",
    "C47_copy_up_invisible_partial",
    "C47_copy_up_succeeds",
    "C47_open_keeps_content",
    "C47_open_succeeds",
    "C47_chmod_changes_one_mode",
    "C47_write_changes_one_file",
    "C47_parent_permissions_kept_refuted",
    "C47_special_bits_kept_refuted"
   ],
   "note": "Copy-up keeps every name, kind and content at each step; permissions exactly when the layers agree on the parents' permissions and the node has no setuid/setgid/sticky bits. Refuted in general: a parent directory takes the permissions of the layer the file was found in, not the merged ones (0700 becomes 0755 in the example), and the special mode bits of the file are dropped."
  },
  {
   "property": "C48",
   "status": "proved",
   "theorems": [
    "C48_lowers_never_written",
    "C48_lowers_never_written_by_histories"
   ],
   "note": "For every call, stack and backend answer, at every persistent step, and for every history of calls and crashes; no hypotheses."
  },
  {
   "property": "C49",
   "status": "proved",
   "theorems": [
    "C49_rename_moves_the_subtree",
    "C49_refused_rename_changes_nothing",
    "C49_nothing_lost_on_the_way"
   ],
   "note": "Same hypotheses as C46, with unlinked for the target. Includes refused renames and the states in between: the moved tree is always at one of the two names."
  },
  {
   "property": "C50",
   "status": "partial",
   "theorems": [
    "C50_no_call_resurfaces_lower_content",
    "C50_finished_rename",
    "C50_histories_with_crashes",
    "C50_rename_cut_short_partial",
    "C50_rename_over_deleted_directory_refuted",
    "C50_rename_away_refuted"
   ],
   "note": "No lower entry resurfaces at any persistent step of any call but Rename, nor over any history of such calls and crashes with completed renames. For a rename cut short only names outside its two names are covered; inside them it is refuted twice: a crash between clearing the target's whiteout and making the moved directory opaque shows deleted lower children inside it, and a crash before the whiteout on the old name shows what the moved entry had replaced."
  },
  {
   "property": "C51",
   "status": "proved",
   "theorems": [
    "C51_masks_equal_store",
    "C51_table_well_kept",
    "C51_unreported_commit_refuted",
    "C51_restart_changes_no_answer",
    "C51_range_is_prefix",
    "C51_set_whiteout_rows",
    "C51_set_opaque_rows",
    "C51_clear_whiteout_rows",
    "C51_clear_opaque_rows",
    "C51_names_read_alike",
    "C51_calls_step_alike"
   ],
   "note": "Byte-string model of the SQLite rows and of the maps, for every name, every history of the six mutators cut short anywhere, and restarts. Hypothesis: a transaction reported failed did not take effect; without it the equality is refuted until the next restart. SQLite TEXT comparison and || are assumed bytewise and transactions atomic. Also proved: string keys stand for the component names of Overlay_Model, for every read and every step of every mutator, so C44-C50 speak about the strings."
  },
  {
   "property": "C52",
   "status": "partial",
   "theorems": [
    "C52_tracker_counts",
    "C52_remove_needs_no_handle",
    "C52_remove_all_needs_no_handle",
    "C52_refusal_changes_nothing",
    "C52_gate_is_only_for_handles",
    "C52_close_counts_once",
    "C52_open_files_stay_partial",
    "C52_rename_loses_handle_refuted",
    "C52_stale_name_refuted",
    "C52_synth_counts_handles",
    "C52_synth_remove_needs_no_handle",
    "C52_synth_close_counts_once"
   ],
   "note": "overlayfs: the tracker's count of a name, and of a subtree, equals the number of handles opened under those names and not closed yet, for every history of opens, closes and other calls; Remove/RemoveAll under the option succeed only with none, refusals change nothing, double close counts once. That this guards the open files is proved while nothing is renamed and refuted otherwise: a renamed file can be removed while open, and a new file under the old name cannot be. synthfs: reference counts equal the live handles after any history including renames, and Remove succeeds exactly when there is none."
  },
  {
   "property": "C53",
   "status": "partial",
   "theorems": [
    "C53_names_resolve_lexically",
    "C53_resolved_names_are_inside",
    "C53_requests_stay_inside",
    "C53_removal_stays_inside",
    "C53_only_the_subtree_goes",
    "C53_base_is_refused",
    "C53_success_means_gone_partial",
    "C53_removes_all_when_served_partial",
    "C53_removal_ends",
    "C53_success_means_gone_refuted"
   ],
   "note": "Names: exact lexical characterisation for every byte string and absolute base; every request of every method and of RemoveAll's recursion names the base or a path below it. Removal, against a server with symlinks that may refuse, fail late or lie: only places at or below the one the name leads to can go; it terminates. That success means all is gone (for a server that does not call existing things missing), and that it succeeds when everything is served, need that the way to the name does not run through the subtree; otherwise refuted. The pkg/sftp client is assumed to pass on ordinary names in listings. No other client changes the tree."
  },
  {
   "property": "C54",
   "status": "partial",
   "theorems": [
    "C54_read_at_error_names_segment",
    "C54_read_error_index_refuted"
   ],
   "note": "ReadAt: proved. Read: refuted (C54_read_error_index_refuted): multi_read_at_closer.go:148-154 does not advance r.idx when n==0 with a non-EOF error, so MultiReadError.Index names the previous reader."
  },
  {
   "property": "C55",
   "status": "partial",
   "theorems": [
    "C55_failed_truncate_never_returns",
    "C55_open_returns_refuted",
    "C55_open_returns_partial",
    "C55_open_truncates_partial"
   ],
   "note": "Refuted: when the view opens for writing and its Truncate fails, OpenFile calls Close on the handle while it holds the state lock that Close takes, and never returns; only user-supplied views can do that. Proved: that is the only case, and otherwise the answer is that of the plain open."
  },
  {
   "property": "C56",
   "status": "partial",
   "theorems": [
    "C56_create_replaces_permissions",
    "C56_mkdir_all_replaces_permissions",
    "C56_existing_permissions_stay_refuted",
    "C56_existing_permissions_stay_partial",
    "C56_new_file_permissions"
   ],
   "note": "Refuted for both: OpenFile with O_CREATE and MkdirAll chmod what is already there, so Create on a 0600 file makes it 0666. Proved: exactly that happens, without O_CREATE or with permissions 0 nothing changes, and new files get the permissions asked for. The client's Chmod is assumed to succeed and to follow symlinks."
  },
  {
   "property": "C57",
   "status": "partial",
   "theorems": [
    "C57_name_is_one_segment",
    "C57_names_do_not_collide",
    "C57_survives_normalising",
    "C57_client_is_a_map",
    "C57_put_touches_only_its_object",
    "C57_base_with_query_refuted",
    "C57_base_with_query_overwrites_refuted",
    "C57_base_with_fragment_refuted",
    "C57_dotdot_name_refuted"
   ],
   "note": "Holds for a base URL without query and fragment: one segment, injective, a map under every history against a plain store, and normalisation-proof except for the names '', '.' and '..'. Refuted as stated: with a query in BaseURL the name lands in the query (objects overwrite each other), with a fragment it is not sent, and '..' is sent unescaped. The server is keyed by the URL's path as sent; a server that conflates %2F with / is outside."
  },
  {
   "property": "C58",
   "status": "partial",
   "theorems": [
    "C58_range_names_the_offset",
    "C58_get_delivers_from_offset",
    "C58_get_size_is_right",
    "C58_ignored_range_is_an_error",
    "C58_not_exist_is_404_or_410",
    "C58_get_settles_the_body",
    "C58_stat_and_put_close_the_body",
    "C58_stat_reports_stated_length",
    "C58_put_succeeds_on_2xx",
    "C58_wrong_start_accepted_refuted",
    "C58_partial_taken_for_whole_refuted",
    "C58_unknown_size_is_minus_one_refuted"
   ],
   "note": "Proved for servers that answer the range asked for; sizes, errors and body closing for all answers. Refuted as stated: a truthful 206 with another start, or shorter than the object when no range was asked for, is accepted, and a 200 of unknown length succeeds with size -1. Bodies are byte lists; failing body reads are covered by the chunk theorems C14."
  },
  {
   "property": "C59",
   "status": "partial",
   "theorems": [
    "C59_handle_is_a_cursor_over_the_range",
    "C59_ranges_accepted",
    "C59_opens_for_reading_only",
    "C59_size_is_length_within_partial",
    "C59_whole_read_is_the_range_partial",
    "C59_size_past_the_end_refuted"
   ],
   "note": "Full refinement of every history to a cursor over the range, for all nestings, with the file handle's closed and flag gates; io.SectionReader and bytes.Reader are modelled from their documentation and source. The size part holds while the range lies inside the inner content and is refuted otherwise: Stat and Seek to the end report n although fewer bytes are there. fs.FS-backed views are not modelled."
  },
  {
   "property": "C60",
   "status": "partial",
   "theorems": [
    "C60_a_writer_is_alone",
    "C60_read_only_handles_stay_below_reserved",
    "C60_only_a_lock_got_raises_the_level",
    "C60_a_free_lock_is_granted",
    "C60_a_locked_handle_sees_one_version_partial",
    "C60_upgrade_keeps_the_version_refuted",
    "C60_downgrade_keeps_the_version_refuted",
    "C60_failed_conversion_excludes_refuted",
    "C60_backend_without_locks_excludes_refuted"
   ],
   "note": "Exclusion, read-only handles and the end of waits hold for every interleaving over backends with a Locker; release failures included, conversion failures excluded. Refuted: flock converts by releasing first (flock(2)), so an upgrade from SHARED or a downgrade to SHARED can let a writer in between and the handle goes on with an old version; a failed conversion keeps its level without a lock; a backend without Locker excludes nothing. One version while locked is proved for histories without such conversions. The version is a ghost; sqlite's page cache check is not modelled."
  },
  {
   "property": "C61",
   "status": "proved",
   "theorems": [
    "C61_names_are_local",
    "C61_full_pathname_is_stable",
    "C61_appended_names_are_siblings",
    "C61_dsn_names_the_file"
   ],
   "note": "Full, for every byte string; the siblings need a nonempty name and a suffix without slash. sqlite's URI decoding is modelled from its documentation (path up to ? or #, %HH decoded); a NUL in the name, which sqlite cuts at, is read back as is here."
  },
  {
   "property": "C62",
   "status": "partial",
   "theorems": [
    "C62_name_absent_or_whole",
    "C62_adds_nothing_else",
    "C62_served_succeeds",
    "C62_served_copy_is_exact",
    "C62_failed_copy_leaves_no_temp",
    "C62_temporaries_never_meet",
    "C62_new_sweeps_work_only",
    "C62_restart_recovers",
    "C62_power_loss_refuted",
    "C62_attributes_may_differ_refuted",
    "C62_linked_work_refuted"
   ],
   "note": "Full for process crashes and for backends that refuse or fail late; success and exactness when everything is served; temporaries' names never meet. Refuted: nothing is synced, so the loss of power may leave the name with part of the data after a successful copy-up; failures to set permissions or time are dropped; where work is a symlink to merged, New empties the content tree. Names are resolved (no symlink components); a failed reflink may have written a part from the beginning."
  },
  {
   "property": "C63",
   "status": "partial",
   "theorems": [
    "C63_to_io_passes_exactly_valid",
    "C63_from_io_asks",
    "C63_from_io_asks_valid_partial",
    "C63_from_io_asks_invalid_refuted",
    "C63_from_then_to",
    "C63_to_then_from",
    "C63_normalizer_cleans_paths_only",
    "C63_localizer_is_normalizer"
   ],
   "note": "Full on Unix for every byte string, with fs.ValidPath given as encoded Unicode scalars and ordinary elements. Refuted in one point: FromIoFs hands names that are not UTF-8 to the fs.FS although they are no valid paths. Windows separators are not modelled."
  },
  {
   "property": "C64",
   "status": "partial",
   "theorems": [
    "C64_names_come_through_partial",
    "C64_entries_beside_an_error_refuted",
    "C64_infos_come_through_partial",
    "C64_gone_entry_gives_nil_refuted",
    "C64_listing_looks_again",
    "C64_read_dir_sorts",
    "C64_sort_exists"
   ],
   "note": "ToIoFs listings and vroot.ReadDir in full, for every sorting function. Readdir and Readdirnames of a widened fs.File are refuted twice: entries that come with an error are dropped, and an entry that vanished gives a nil FileInfo without an error; proved for pages without either."
  },
  {
   "property": "C65",
   "status": "partial",
   "theorems": [
    "C65_names_stay_inside",
    "C65_reads_reach_what_is_there",
    "C65_sub_roots_nest",
    "C65_outside_is_not_asked",
    "C65_sub_root_is_part_of_its_parent",
    "C65_calls_land_inside_partial",
    "C65_writes_land_inside_partial",
    "C65_only_creates_open_links",
    "C65_creates_stay_inside_refuted",
    "C65_sub_root_outlives_its_directory_refuted"
   ],
   "note": "Names, nesting, independence from what is outside, and agreement with the parent view are proved for every merged view. Where the top's file system takes a name is proved for every tree of the top that has no symlink on the way to the sub-root, and for every call but a create through a link that leads to nothing. Both limits are refuted: a create without O_EXCL on a dangling link hands the link itself to the top, whose file system follows it (s/d -> ../.., s/e -> d/x, Create(e) through the view of s makes x beside the top's merged directory and store); and a sub-root is a path, so a symlink put in the place of its directory redirects it."
  },
  {
   "property": "C66",
   "status": "proved",
   "theorems": [
    "C66_makes_the_missing_directories",
    "C66_succeeds_over_directories",
    "C66_failure_leaves_a_leading_part",
    "C66_refused_before_anything_is_made",
    "C66_makes_them_in_place",
    "C66_existing_directory_is_success_refuted",
    "C66_makes_only_inside_refuted"
   ],
   "note": "Every merged view that only the call itself changes, with a failure of the top at any level. Two findings beside it: a name whose last element is a symlink to a directory is refused with ENOTDIR although it leads to a directory, and through a view whose directory was removed the directories above it are made again."
  },
  {
   "property": "C67",
   "status": "partial",
   "theorems": [
    "C67_finds_every_entry_partial",
    "C67_plain_content_partial",
    "C67_sparse_content_partial",
    "C67_contiguous_file_refuted"
   ],
   "note": "Every archive whose contiguous files ('7') hold no content; what archive/tar's Next answers is taken from the archive as written (isHeaderOnlyType, the bytes read by then). Refuted with one: Sections gives such an entry no body while archive/tar does, so it opens empty and a sparse file after it is looked for in its content and opens as zeros. A map whose fragments do not add up to the stored bytes is outside the statement."
  },
  {
   "property": "C68",
   "status": "partial",
   "theorems": [
    "C68_successful_push_stores_file_partial",
    "C68_complete_means_stored",
    "C68_undisturbed_push_completes_partial",
    "C68_pushes_keep_progress_and_other_objects",
    "C68_opened_body_is_chunk_tail",
    "C68_download_delivers_file",
    "C68_undisturbed_download_is_exact",
    "C68_empty_file_refuted",
    "C68_shrinking_file_refuted",
    "C68_only_the_last_chunk_can_be_short",
    "C68_unaligned_append_refused"
   ],
   "note": "Push, the sink, the client and a plain store behind a faulty network are composed; every non-empty file that does not change while it is sent. Refuted twice: an empty file is never stored, since Push sees offset = size and only commits (Push returns nil each time, State stays incomplete, against the sink's promise that chunk 0 always exists); and a file that shrinks while it is sent is stored with a short last chunk and a nil error. ChunkedSink's methods do not have fsutil.ResumableSink's signatures; the adapter between them is assumed to pass values through. Error statuses of the network are not 2xx, 404 or 410. The chunk objects at first hold nothing, or no wrong bytes of the right length."
  },
  {
   "property": "C69",
   "status": "partial",
   "theorems": [
    "C69_taken_iff_inside",
    "C69_calls_stay_under_the_root",
    "C69_kernel_reaches_the_named_place_partial",
    "C69_linkless_names_reach_their_place_partial",
    "C69_remove_takes_the_root_refuted",
    "C69_trailing_slash_refuted",
    "C69_dotdot_after_link_refuted"
   ],
   "note": "Which names pass and what is called: full, on Unix, for an absolute clean root as filepath.Abs gives it. Refuted: Remove of '.', '' or 'a/..' hands the root directory to os.Remove (RemoveAll and overlayfs refuse it). That the kernel reaches the named place holds for names without '..' that do not end in '/' or '/.', with any symlinks, and for names that meet no symlink; refuted otherwise: 'file/' opens the file, 'link/../x' reaches another file than the kernel would, 'missing/../x' succeeds. Symlinks out of the root are followed by design."
  },
  {
   "property": "C70",
   "status": "partial",
   "theorems": [
    "C70_names_unique",
    "C70_stat",
    "C70_mkdir",
    "C70_chmod",
    "C70_mkdir_all",
    "C70_open",
    "C70_open_error_changes_nothing",
    "C70_remove",
    "C70_remove_all_partial",
    "C70_remove_all_refuted",
    "C70_rename_partial",
    "C70_rename_error_changes_nothing",
    "C70_rename_keeps_the_old_name",
    "C70_rename_refuted",
    "C70_rename_destroys_refuted",
    "C70_add_file",
    "C70_reallocate",
    "C70_views_closed_once_partial",
    "C70_views_closed_once_refuted",
    "C70_no_view_lost_partial",
    "C70_no_view_lost_refuted",
    "C70_file_umask_refuted",
    "C70_mkdir_all_unwritable_refuted",
    "C70_mkdir_names_refuted",
    "C70_chmod_type_refuted"
   ],
   "note": "Every reachable state and every path of ordinary elements; Mkdir, Chmod, Stat and Remove with exact conditions for success. Refuted: Rename to another last name (the dirent keeps its name, so the new name never appears, and whatever has the old last name in the target directory, even a full directory, is replaced and its views are never closed); RemoveAll (a directory that had entries is emptied of files but stays, as do the directories in it); Reallocate closes the old view twice; files made by OpenFile ignore the umask; MkdirAll does not ask write permission; Mkdir accepts '..'; Chmod lets a file report itself as a directory. Locks, times and owners are left out, and access mode 3 of OpenFile."
  },
  {
   "property": "C71",
   "status": "partial",
   "theorems": [
    "C71_memory_file",
    "C71_ranged_read_at",
    "C71_ranged_reads",
    "C71_ranged_size_partial",
    "C71_ranged_size_refuted",
    "C71_temporary_files_partial",
    "C71_close_removes_temporary_refuted"
   ],
   "note": "In-memory files: every history of affordable calls, flags with one access mode, refining the abstract file of C37 (a huge Truncate panics as in C37). Ranged reads: full. Refuted: a ranged view's Stat size is n - off instead of n, negative when off > n, while the open handle says n; tmpDirFileView.Close clears the path and then removes the empty path, so each temporary file stays and Close returns that removal's error. Appends through two handles are C38's race, with the same code here."
  },
  {
   "property": "C72",
   "status": "partial",
   "theorems": [
    "C72_readdir",
    "C72_readdir_once",
    "C72_closed_stays_closed",
    "C72_late_calls_refused",
    "C72_each_call_once",
    "C72_closed_once_refuted",
    "C72_no_use_after_close_refuted",
    "C72_metadata",
    "C72_write_sets_time_refuted",
    "C72_chmod_kept_refuted"
   ],
   "note": "Readdir and one-at-a-time closing: full. Interleaved: a call begun after a Close was let in never reaches the file and each call is made at most once; refuted: two Closes can both reach the file, and a call can run after the Close. Metadata: exact once initialised; refuted: a write never moves Stat's modification time, since it is copied once from the view, and a Chmod before the first Open of a file that did not exist when added is undone by that Open."
  },
  {
   "property": "C73",
   "status": "partial",
   "theorems": [
    "C73_is_reaches",
    "C73_wrap_path",
    "C73_wrap_path_fields",
    "C73_wrap_link",
    "C73_wrap_link_fields",
    "C73_wrap_leaves_other_texts_partial",
    "C73_wrap_leaves_other_texts_refuted",
    "C73_prefix",
    "C73_gather",
    "C73_gather_checked",
    "C73_gather_prefixed",
    "C73_translate_leaves_others",
    "C73_translate_escapes",
    "C73_translate_keeps_path",
    "C73_translate_keeps_link_partial",
    "C73_translate_keeps_link_refuted"
   ],
   "note": "Causes, nil, fields, texts and frame are proved in full, with errors.Is proved to find exactly what Unwrap reaches. Refuted: WrapPathErr overwrites a PathError in place, so an error someone else holds changes its text (proved for what is not itself a PathError); translateEscape looks for a PathError at any depth before a LinkError, so a LinkError over a PathError becomes a PathError and loses Old and New, against its comment (proved where no PathError is below). Whether os.Root ever nests them so is not decided here. Formatting verbs other than %s are left out, and that Gather keeps the caller's slice."
  },
  {
   "property": "C74",
   "status": "partial",
   "theorems": [
    "C74_names",
    "C74_path",
    "C74_same_elements",
    "C74_valid_names_partial",
    "C74_valid_names_refuted",
    "C74_adapter",
    "C74_files_read_only",
    "C74_files",
    "C74_readonly_flag_refuted",
    "C74_lists_directories_partial",
    "C74_lists_directories_refuted",
    "C74_listing_partial",
    "C74_listing_refuted",
    "C74_history",
    "C74_history_shows_partial",
    "C74_history_shows_refuted"
   ],
   "note": "Exact for every name on Unix, every method and every set of file methods. Refuted: '/' becomes the empty string and names that climb keep their '..', neither a valid io/fs path; NewIoFsAdapter ignores its readonly argument; directories of an fs.FS whose files have io/fs's ReadDir cannot be listed, since only a method called Readdir is looked for; entries that come with an error are dropped by IoFs's ReadDir; the history keeps the caller's byte slices, so using a buffer again changes what earlier entries show."
  },
  {
   "property": "C75",
   "status": "partial",
   "theorems": [
    "C75_returns_partial",
    "C75_circular_views_refuted",
    "C75_callbacks_refuted",
    "C75_failed_truncation_refuted"
   ],
   "note": "Proved for every schedule of any number of goroutines over any stack that is not circular, with callbacks and walked sources that do not come back to the file system they are called from. Refuted otherwise: a view of a file in the same synthfs hangs the first OpenFile, and its Stat hangs when a writer comes between two read locks; two synthfs viewing each other hang each other; an AddFile callback or an AddFS source that reads the same root hangs; a failing truncation in OpenFile hangs (the finding of C55). The mutex of a handle not yet handed out is left out as nobody contends for it; goroutines inside host file systems are taken to return."
  },
  {
   "property": "C76",
   "status": "partial",
   "theorems": [
    "C76_race_free_partial",
    "C76_listing_refuted",
    "C76_positions_refuted"
   ],
   "note": "Proved for every schedule and every nesting, except listing a synthfs directory handle and moving handles of bytes and ranged views. Refuted there: ReadDir, Readdir and Readdirnames release state.mu and then read names, modes and times of the nodes, against node.go's own rule, racing with Chmod, Chown, Chtimes and Rename; bytesHandle and rangedHandle keep a position no lock guards, where memHandle and tarfs guard theirs. A field group is one datum, so the theorem also rules out races between different nodes of a tree."
  },
  {
   "property": "C77",
   "status": "partial",
   "theorems": [
    "C77_calls_return",
    "C77_answers",
    "C77_directories_consistent",
    "C77_apart",
    "C77_kept_partial",
    "C77_exclusive_refuted",
    "C77_kept_refuted",
    "C77_remove_refuted",
    "C77_rename_atomic_refuted",
    "C77_one_place_refuted",
    "C77_rename_cycle_refuted"
   ],
   "note": "Every step of a directory under its own lock is atomic, everything between is interleaved freely; permissions are all granted, RemoveAll, views and closing are left out. Proved for every schedule: return, consistent directories, isolation of separate subtrees (also for Remove and Rename), and that names made by one goroutine only stay. Refuted by explicit schedules, as the file system has no lock of its own and checks before it acts: two O_EXCL creations of a name both succeed; Mkdir replaces the directory another goroutine just made, with its files; Remove drops a directory into which a file was just put; a Rename leaves a moment with neither name; two Renames leave a file in two directories; Renames of two directories into each other detach both from the root. synthfs, with one lock per tree, has none of these."
  },
  {
   "property": "C78",
   "status": "partial",
   "theorems": [
    "C78_one_request",
    "C78_served_bytes",
    "C78_in_order_once",
    "C78_body_closed",
    "C78_calls_return",
    "C78_ahead_never_waits",
    "C78_unserved_never_queue_refuted"
   ],
   "note": "Each load, swap and store of the atomics and each section under mu is a step; every schedule, any answers, reads of at least one byte. Refuted: mu is said to be taken only by a read the lane is going to serve, but pos moves with every piece of a read in progress, so a read asking for the byte the other is about to read queues behind it, however long the network takes, and is then sent away unserved. What makes an answer acceptable is C48's; the drain of an abandoned body is one step."
  },
  {
   "property": "C79",
   "status": "partial",
   "theorems": [
    "C79_calls_happen_in_some_order_partial",
    "C79_append_with_truncate_refuted",
    "C79_closed_handles_refuse",
    "C79_refused_only_when_closed",
    "C79_close_waits_for_calls_refuted",
    "C79_every_call_can_return"
   ],
   "note": "Linearizability of every schedule, where whoever appends does so through the one handle that changes the file; closing, refusing and returning for every schedule without that condition. Refuted otherwise: an O_APPEND Write looks the length up in one section of the buffer and writes in another, so a Truncate between them leaves zeros before the appended bytes, which no order of the two calls gives (two appending handles are C38's finding); and Close does not wait for a call past isClosed, so a Write changes the file after Close returned and the reference count dropped. Memory for any file is assumed (the panics are C37's)."
  },
  {
   "property": "C80",
   "status": "partial",
   "theorems": [
    "C80_bad_names",
    "C80_stat",
    "C80_chmod",
    "C80_mkdir",
    "C80_mkdir_all",
    "C80_open",
    "C80_remove",
    "C80_remove_all",
    "C80_rename",
    "C80_add_file",
    "C80_reallocate",
    "C80_names",
    "C80_mkdir_reveals_refuted",
    "C80_mkdir_all_made_refuted",
    "C80_mkdir_long_refuted"
   ],
   "note": "Exact for every name and reachable tree, except three findings: Mkdir looks for the name before it asks whether the directory may be searched, so it answers EEXIST or EACCES and tells what a directory one may not search holds; MkdirAll with a mode that lacks the owner's search bit makes the directory and then returns EACCES; Mkdir never looks at its last element, so it takes names that no other call accepts, such as one of 256 bytes. Locks, views' own errors and access mode 3 are left out."
  },
  {
   "property": "C81",
   "status": "partial",
   "theorems": [
    "C81_names",
    "C81_places",
    "C81_mkdir",
    "C81_symlink",
    "C81_link",
    "C81_mkdir_all",
    "C81_remove",
    "C81_remove_all",
    "C81_rename",
    "C81_open",
    "C81_chmod",
    "C81_open_root",
    "C81_add_file",
    "C81_add_fs",
    "C81_mkdir_all_over_file_refuted",
    "C81_create_through_link_refuted",
    "C81_rename_mixes_kinds_refuted"
   ],
   "note": "Exact for every name and reachable tree; AddFile for views whose Stat works and callbacks that decide, AddFS up to the errors of its source and callback. Refuted as far as the errors are to be those of the calls they stand for: MkdirAll over a file answers ENOTEMPTY where package os answers ENOTDIR; OpenFile with O_CREATE on a link to a missing name answers ENOENT where open(2) makes the file; Rename puts a file in the place of an empty directory and a directory in the place of a file, where rename(2) answers EISDIR and ENOTDIR."
  },
  {
   "property": "C82",
   "status": "partial",
   "theorems": [
    "C82_random_policy",
    "C82_dir_policy_partial",
    "C82_dir_policy_in_dot_refuted"
   ],
   "note": "Random policy exact. Directory policy exact when its directory is a relative path below the walked one: it takes the ten-digit names directly in the directory and leaves those deeper. A policy on \".\" itself removes nothing and reports no error (refuted); with an absolute directory the walk is cut off at once (C22). Other processes do not change the tree during the walk."
  },
  {
   "property": "C83",
   "status": "partial",
   "theorems": [
    "C83_answers",
    "C83_one_answer",
    "C83_link_of_a_directory",
    "C83_no_parent",
    "C83_rename_of_own_directory_refuted"
   ],
   "note": "Exact for every stack whose layers answer their Lstats and hold no symlink on the way to the name (C44 has what happens otherwise), for names whose parent is a visible directory; without one, the call is refused with ENOENT or ENOTDIR and does nothing. Refuted: rename.go says a directory the top holds alone moves as one rename, but a directory all of whose names are the top's is refused with EXDEV when a lower layer has a file of that name. The top backend's own refusal of a hard link to a directory is left unnamed. The open-handle gate is C52's."
  },
  {
   "property": "C84",
   "status": "partial",
   "theorems": [
    "C84_on_the_wire",
    "C84_read_back",
    "C84_made_by_calls",
    "C84_condition",
    "C84_encoding",
    "C84_taken_is_uncoded_partial",
    "C84_origin",
    "C84_url",
    "C84_stray_range_refuted",
    "C84_coded_is_refused_refuted"
   ],
   "note": "Proved: for every history and every configuration spelling the three reserved names as net/http does (proved of everything made by Set/Add/Del) a server finds exactly the range, condition and coding meant and all other fields unchanged; the range value reads back one way only; If-Range is a strong tag or the date; exact acceptance of Content-Encoding, uncoded when there is at most one line; origins compare by scheme and host; URLs accepted. Refuted (findings): a Range put in the configured map under another spelling survives beside the reader's own, though newRequest's comment says it cannot; a response with Content-Encoding lines identity and gzip is taken, because only the first is looked at."
  },
  {
   "property": "C85",
   "status": "partial",
   "theorems": [
    "C85_mapping",
    "C85_missing",
    "C85_sync",
    "C85_stock_errors_partial",
    "C85_stock_errors_refuted",
    "C85_link_onto_existing_refuted",
    "C85_listing",
    "C85_listing_failed"
   ],
   "note": "Proved: the mapping, the missing-file test and Sync exactly; over the stock server the three sentinels exactly for paths not containing the phrase looked for; the handle's listing under any schedule, served and failed. The stock server's and client's treatment of errno is part of the model (pkg/sftp is not in the sandbox). Refuted (findings): a path containing \"file exists\" makes any failure below it match ErrExist; Link, Rename and MkdirAll onto something existing match nothing because their errors are not mapped."
  },
  {
   "property": "C86",
   "status": "partial",
   "theorems": [
    "C86_layout",
    "C86_layout_answers",
    "C86_schema",
    "C86_schema_taken",
    "C86_foreign_database_refuted",
    "C86_store",
    "C86_read_only_layer",
    "C86_built_again",
    "C86_stacked_partial",
    "C86_stacks",
    "C86_refused",
    "C86_sweep_through_a_link_refuted",
    "C86_plain_layer",
    "C86_closed"
   ],
   "note": "Proved for every root, database, stack and pattern of failures. SQLite is modelled as the tables the schema names with transactional statements; symlinks only where the layout is looked up. C86_stacked is partial in assuming that work is a directory and not a link. Refuted (findings): a database that carries no version at all - some other program's - is not an error as documented but has the tables added to it; ensureCanonical and sweepWork follow links, so with work a link to merged the layer is accepted and New deletes its whole content."
  },
  {
   "property": "C87",
   "status": "partial",
   "theorems": [
    "C87_some_tree",
    "C87_histories",
    "C87_one_layer",
    "C87_lookups",
    "C87_listings",
    "C87_cut_short",
    "C87_renames_are_atomic_refuted"
   ],
   "note": "Composes C44-C50 and C83 into one refinement over histories. Modes of directories and bits beyond the permissions are left out because C47 refutes that they are kept. Names are as the resolver hands them on: no link on the way in the tree or in a lower, two-name calls with directories above both; the backends answer. Hard links are not among the calls (the model copies the content; the sharing is not modelled). Refuted (finding, with C50): a rename cut short is not atomic, it can show content that was deleted."
  },
  {
   "property": "C88",
   "status": "partial",
   "theorems": [
    "C88_each_call",
    "C88_refused_only_after_close",
    "C88_closed_refuses",
    "C88_some_close_enters",
    "C88_closed_once_partial",
    "C88_closed_once_refuted",
    "C88_no_use_after_close_refuted",
    "C88_recorded",
    "C88_history",
    "C88_balanced",
    "C88_history_pairs_refuted"
   ],
   "note": "Strengthens C72 for the wrapper: no close is lost, refusals begin with the first Close, and the same for the recording wrapper. Every interleaving of the locked sections, with the wrapped file an oracle; a call on the wrapped file is one step, so overlap inside it is not described. Closed at most once is proved when one goroutine does the closing. Refuted (findings): two goroutines that call Close at the same time both close the wrapped file, because the check and the mark are separate sections; a call that passed the check enters the wrapped file after it was closed; the history does not tell which results belong to which of two calls of one method."
  },
  {
   "property": "C89",
   "status": "partial",
   "theorems": [
    "C89_history_partial",
    "C89_lookups",
    "C89_listings",
    "C89_tree",
    "C89_plain_renames",
    "C89_renames_partial",
    "C89_renames_lose_nothing_refuted"
   ],
   "note": "A refinement of the node heap to a plain tree keyed by paths, answers included (the error classes exactly). Calls go through the first root, with DisableOpenFileRemoval off; sub-roots are covered by C36-C43. Times and owners are not modelled. Left out: renames of a directory to a place inside itself. Refuted (finding, with C40): such a rename answers success and everything in the directory is gone from the root, where a file system answers EINVAL."
  },
  {
   "property": "C90",
   "status": "partial",
   "theorems": [
    "C90_history_partial",
    "C90_descriptors",
    "C90_unnamed_files_stay_in_memory",
    "C90_locks_follow_the_level",
    "C90_delete_on_close_spares_others_refuted",
    "C90_delete_on_close_after_delete_refuted",
    "C90_delete_removes_only_files_refuted",
    "C90_open_refuses_directories_refuted"
   ],
   "note": "The backend is a POSIX-like tree (an open file outlives its name) with an oracle of failures per call; go-sqlite3's bridge (error codes, identity comparison with io.EOF, zero fill) and SliceFile are in the specification as documented. Lock waits are C60's. C90_history_partial leaves out Open and Delete of a directory and a delete-on-close handle whose name no longer is its file. Refuted (findings): such a handle deletes whatever has its name by then, or fails when nothing has; Delete removes an empty directory; Open for reading takes a directory for a database."
  },
  {
   "property": "C91",
   "status": "partial",
   "theorems": [
    "C91_copy",
    "C91_copy_succeeds",
    "C91_copy_errors",
    "C91_copy_roots",
    "C91_map_partial",
    "C91_map_succeeds_partial",
    "C91_copy_of_a_file_refuted",
    "C91_copy_of_directories_refuted",
    "C91_map_of_nested_names_refuted"
   ],
   "note": "The source is a fixed tree (listing type, Stat's mode or failure, bytes); io/fs.WalkDir is modelled as its source says. Names of the source's entries are proper and distinct. Destinations of MapFsIter that lie inside one another are left out of C91_map_partial and C91_map_succeeds_partial. Refuted (findings): Copy of a srcRoot that is a file returns nil and copies nothing; empty directories of the source are not made; a mapping that names a file and later one of its directories succeeds and loses the file."
  },
  {
   "property": "C92",
   "status": "partial",
   "theorems": [
    "C92_history_partial",
    "C92_written_read",
    "C92_names_leave_data",
    "C92_handles_outlive_names",
    "C92_calls_leave_names",
    "C92_names_share_modes_refuted"
   ],
   "note": "Composes C37, C59 and C89 into one refinement. Files are made in memory or added as bytes views (views of another fs.FS are C59's). Calls go through the first root, with DisableOpenFileRemoval off; no AddFS, no Chmod or Chown of a handle, no directory listings (C33), no rename of a directory into itself (refuted in C89), and no file asked to be larger than an allocation can be (the panic is C37's). Refuted: two names of one file share its bytes but not its mode, since Link copies the mode, as its comment says."
  },
  {
   "property": "C93",
   "status": "proved",
   "theorems": [
    "C93_one_view",
    "C93_added",
    "C93_refusal",
    "C93_handles",
    "C93_sub",
    "C93_sub_of_sub",
    "C93_readonly_over_prefix",
    "C93_widen",
    "C93_read_file",
    "C93_read_dir",
    "C93_write_file",
    "C93_write_readonly",
    "C93_write_flag"
   ],
   "note": "Unix paths. The bottom answers Open, OpenFile, Stat, Write and Close by oracles and may have a ReadFile and ReadDir of its own, assumed to agree with opening (own_agrees); no file system in the repository has a Sub of its own, so none is modelled. What a call does at the bottom is the business of the claims about that file system; OpenRoot of the Root variants is C36's. The finding that Remove(\".\") of a prefix view reaches the directory itself (C35) holds at any depth."
  },
  {
   "property": "C94",
   "status": "partial",
   "theorems": [
    "C94_tree_partial",
    "C94_open_partial",
    "C94_lstat_partial",
    "C94_listing_partial",
    "C94_absolute_name_refuted",
    "C94_link_to_replaced_refuted"
   ],
   "note": "Composes C29 and C30 against an independent extraction, entry by entry onto an empty directory. Archives are tame: relative names that stay inside and do not begin with two dots, types the options ask for, no file used as a directory, each hard link after a file that no later entry replaces, no symlink to the dot or ending in two dots (the rest is refuted in C29 and C30, or never extracts). Listings are for archives that name each directory (C29 refutes the others). Refuted (findings): an entry with a leading slash, which tar extracts below the directory, is never found; a hard link to a file that comes again later shows the later bytes, extraction keeps the earlier ones."
  },
  {
   "property": "C95",
   "status": "partial",
   "theorems": [
    "C95_parse",
    "C95_dir_line",
    "C95_symlink_line",
    "C95_file_line_partial",
    "C95_setup_partial",
    "C95_lines_partial",
    "C95_bad_line",
    "C95_any_order_partial",
    "C95_order",
    "C95_blocked",
    "C95_arrow_in_content_refuted",
    "C95_slash_in_content_refuted",
    "C95_link_to_link_refuted"
   ],
   "note": "strconv.Unquote is an oracle. The file system is a plain tree with numbered files; it ends the run at a symlink in the way instead of following it, and coherent sets never meet one. Modes and times are those of lines (none), so Chmod, Chtimes and the removal after a failed write are not run (C97 has them). Sets are coherent: plain names, only directories repeated or above something, hard links to files of the set. Unix paths. Refuted (findings): quoted content with \" -> \" in it is read as a symlink; unquoted content ending in a slash as a directory; a hard link to another hard link of the set is made or fails by how the two names sort, even when given in a good order."
  },
  {
   "property": "C96",
   "status": "partial",
   "theorems": [
    "C96_history_partial",
    "C96_exact_partial",
    "C96_read_partial",
    "C96_read_all_partial",
    "C96_open_once_partial",
    "C96_files",
    "C96_files_error",
    "C96_sizers",
    "C96_sizes",
    "C96_overflow_refuted",
    "C96_repeater_negative_refuted"
   ],
   "note": "Composes C01, C02 and C04 with every part keeping its state. Declared sizes are the real ones (C03 has the others) and sum within int64; the caller's own files keep the rules of io.ReaderAt. io.SectionReader is the standard library's, modelled with its saturating limit; its own Read and Seek are not used. The chain of MultiReadError is reduced to its cause (C54 has the index). One goroutine, as NewSeqReaderAt demands. Refuted (findings): sizes beyond MaxInt64 in sum wrap, and the concatenation reads as empty with io.EOF at once; a bare ByteRepeater answers negative offsets with bytes and no error."
  },
  {
   "property": "C97",
   "status": "partial",
   "theorems": [
    "C97_one_file",
    "C97_one_dir",
    "C97_files_as_asked",
    "C97_dir_modes",
    "C97_dir_times_partial",
    "C97_nothing_else",
    "C97_dir_times_refuted",
    "C97_old_file_lost_refuted"
   ],
   "note": "Entries are directories and files at different places with plain names; permission checks are not modelled (a run as root), and the clock moves with every call. Proved: one file and one directory under every pattern of failing calls, files and directory modes after whole runs, everything else unchanged. A directory's time is proved only where nothing is made below it, and refuted otherwise: directories are made and dated first, so each file then made inside moves the time again. Refuted: a file that was there before is removed, not given back, when its replacement fails."
  },
  {
   "property": "C98",
   "status": "proved",
   "theorems": [
    "C98_one_read",
    "C98_answers_handed_on",
    "C98_histories",
    "C98_read_to_end"
   ],
   "note": "io.MultiReader is the standard library's and is modelled with its loop; its flattening of a nested io.MultiReader cannot apply, as that is no io.ReadCloser. Readers keep the rules of io.Reader; what a reader does at a call is a plan given in advance, any plan. Reading to the end is proved for readers that do not fail and do not return nothing without io.EOF. What Close reports is in C06."
  },
  {
   "property": "C99",
   "status": "partial",
   "theorems": [
    "C99_whole_test",
    "C99_verdict",
    "C99_history_tells_calls_apart",
    "C99_reported_once_refuted"
   ],
   "note": "How fmt prints an argument is an oracle, assumed to be one line (as %q, modes, numbers and times are); that different calls look different also assumes it tells arguments of one kind apart, which for modes and times means what is printed of them. Handles are numbers and errors their texts. One goroutine. Helper is left out. Setup and SetupLines are in C95 and C97. Refuted (finding): ReportFailf before any call, with a T whose Fatalf returns, reports twice, so 'exactly once' holds only for the wrappers, which record first."
  },
  {
   "property": "C100",
   "status": "proved",
   "theorems": [
    "C100_err_is",
    "C100_nil_err",
    "C100_err_as_type",
    "C100_err_as_type_and"
   ],
   "note": "errors.Is and errors.As are the standard library's, modelled with their walk; an error's own As method is left out. Identity and type of an error are numbers; interface types as type parameter are one such number. The text of the messages (msgSuffix) is not modelled."
  },
  {
   "property": "C101",
   "status": "proved",
   "theorems": [
    "C101_get",
    "C101_never_shared",
    "C101_put"
   ],
   "note": "sync.Pool is any bag that may lose entries and picks any; each call is one step, as sync.Pool is safe for concurrent use. The contents of slices are not modelled (they are handed out unwiped, as in the code). Callers use and give back only what they have, as the three callers in the repository do with defer; without it two callers get one slice (Example). PutBytes(nil) does nothing and is left out; PutBuf(nil) would panic."
  }
 ]
}