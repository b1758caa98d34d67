{"id": "C01", "title": "Concatenated reader: random access equals slicing the concatenation", "statement": "For readers whose reported Size equals their real length, ReadAt(p, off) on the reader returned by NewMultiReadAtSeekCloser fills p with exactly the bytes [off, off+len(p)) of the concatenation of all segments, returns n = min(len(p), total-off), and returns io.EOF exactly when n < len(p); this holds for zero-length segments, any number of segments (both sides of the linear/binary search switch) and any split of the reads across segments.", "quantifier": "every list of segments, every offset, every buffer length, every way each segment may return short counts with io.EOF at its end", "why_tests_cant": "segment boundaries, empty segments, the search threshold and offset/length combinations form an unbounded product; tests sample a few layouts", "anchors": ["stream/multi_read_at_closer.go: NewMultiReadAtSeekCloser", "stream/multi_read_at_closer.go: (*multiReadAtSeekCloser).ReadAt", "stream/multi_read_at_closer.go: (*multiReadAtSeekCloser).readAt", "stream/multi_read_at_closer.go: search", "stream/multi_read_at_closer.go: binarySearch"]}
{"id": "C02", "title": "Concatenated reader: any Read/Seek/ReadAt history is one cursor over the concatenation", "statement": "After any sequence of Read, Seek and ReadAt calls the reader behaves like a single in-memory file holding the concatenation: Read returns the bytes at the cursor (possibly fewer than asked, never zero bytes without an error for a non-empty buffer) and advances the cursor by the count returned, Seek moves the cursor to the requested position or fails and leaves it, and ReadAt neither reads nor moves the cursor.", "quantifier": "every finite sequence of Read/Seek/ReadAt operations over every segment layout", "why_tests_cant": "the state is a (segment index, offset) pair that must stay consistent over unbounded histories", "anchors": ["stream/multi_read_at_closer.go: (*multiReadAtSeekCloser).Read", "stream/multi_read_at_closer.go: (*multiReadAtSeekCloser).Seek", "stream/multi_read_at_closer.go: (*multiReadAtSeekCloser).ReadAt"]}
{"id": "C03", "title": "Concatenated reader: a segment shorter than declared is never mistaken for the end", "statement": "If some segment delivers fewer bytes than its declared Size, a reader that consumes the whole stream with Read or ReadAt gets an error distinguishable from io.EOF (ErrUnexpectedEOF / ErrInvalidSize), i.e. a truncated source is never reported as a complete read.", "quantifier": "every segment layout with an understating or overstating segment at any position", "why_tests_cant": "which position and which (n, err) return shape of the faulty segment matters; a test picks one", "anchors": ["stream/multi_read_at_closer.go: (*multiReadAtSeekCloser).Read", "stream/multi_read_at_closer.go: (*multiReadAtSeekCloser).readAt", "stream/multi_read_at_closer.go: ErrInvalidSize"]}
{"id": "C04", "title": "Sequential-source ReaderAt equals random access on the content", "statement": "For a source that can be (re)opened at any offset, every ReadAt on NewSeqReaderAt's result returns exactly the bytes of the content at [off, off+len(p)) clipped to Size, with io.EOF exactly when short, regardless of which offsets earlier calls used, and a run of contiguous reads opens the source once.", "quantifier": "every history of ReadAt calls and every content", "why_tests_cant": "the reader keeps a live stream whose position must track every earlier call, including failed and partial ones", "anchors": ["stream/seq_reader_at.go: NewSeqReaderAt", "stream/seq_reader_at.go: (*seqReaderAt).ReadAt", "stream/seq_reader_at.go: (*seqReaderAt).Close"]}
{"id": "C05", "title": "Cancellable reader: after cancellation nothing is read any more and the error sticks", "statement": "Once a Read on NewCancellable's result has observed a cancelled context (or a source error), every later Read returns a non-nil error and the underlying reader is never called again; before that, data and errors pass through unchanged.", "quantifier": "every interleaving of cancellations and reads, every source behaviour", "why_tests_cant": "cancellation can fall between any two calls", "anchors": ["stream/cancellable.go: NewCancellable", "stream/cancellable.go: (*cancellable).Read"]}
{"id": "C06", "title": "Closing an aggregate closes every member and reports every failure", "statement": "Close on a concatenated reader calls Close on each member that has one exactly once, whatever the others return, and returns nil iff all of them returned nil; each non-nil error stays reachable through the returned error.", "quantifier": "every list of members and every combination of close errors", "why_tests_cant": "2^n failure combinations", "anchors": ["stream/multi_read_at_closer.go: (*multiReadAtSeekCloser).Close", "stream/multi_read_closer.go: (*multiReadCloser).Close", "stream/internal/serr/gathered.go: Gather", "stream/internal/serr/gathered.go: GatherPrefixed"]}
{"id": "C07", "title": "Content-Range header: accepted exactly when well formed, and decoded to the true triple", "statement": "Parsing accepts a header iff it is (ASCII, surrounding white space and letter case of the unit aside) a byte range 'bytes S-E/T' or the unsatisfied form 'bytes */T' with decimal non-negative int64 numbers, S<=E and E<T; accepted headers decode to the written numbers, and formatting any legal triple then parsing gives the triple back.", "quantifier": "every byte string", "why_tests_cant": "strings are unbounded; overflow, signs, spaces and leading zeros are corner cases", "anchors": ["stream/httprange/content_range.go: parseContentRange", "stream/httprange/content_range.go: parseDecimal"]}
{"id": "C08", "title": "HTTP ReaderAt: returned bytes are the requested ones or there is an error", "statement": "For any server behaviour, ReadAt on a range reader returns n<=len(p), n<len(p) only with a non-nil error, and when the server's body honours its own Content-Range the first n bytes of p are the object's bytes at [off, off+n); a response for another range, another total size or with too short/long framing is reported as an error, never as data.", "quantifier": "every server response (status, headers, body length) and every offset/length", "why_tests_cant": "the server is arbitrary; tests fix a handful of handlers", "anchors": ["stream/httprange/reader_at.go: (*ReaderAt).ReadAt", "stream/httprange/reader_at.go: (*ReaderAt).checkPartial", "stream/httprange/reader_at.go: (*ReaderAt).readUnsatisfied"]}
{"id": "C09", "title": "HTTP ReaderAt: one object version per reader under any interleaving", "statement": "Size, ETag, Last-Modified and final origin of the object settle at most once per reader and never change afterwards, whatever number of concurrent reads race; every read that returns data had a response consistent with the settled values, so two successful reads never mix two versions of the object that differ in any validator both expose.", "quantifier": "every schedule of concurrent ReadAt/Probe calls and every sequence of responses", "why_tests_cant": "compare-and-swap races cannot be enumerated by running tests", "anchors": ["stream/httprange/httprange.go: (*ReaderAt).pinOrVerify", "stream/httprange/httprange.go: (*objectMeta).completedBy", "stream/httprange/reader_at.go: (*objectMeta).mismatch"]}
{"id": "C10", "title": "HTTP streaming lane: transparent and at most one streaming request", "statement": "With streaming enabled, any sequence of ReadAt calls returns the same bytes as without it, at most one open-ended request is ever sent per reader, and once the lane has failed or an out-of-order read arrived it is never used again.", "quantifier": "every sequence of ReadAt calls, every stream failure point", "why_tests_cant": "the lane state depends on the whole history of offsets and failures", "anchors": ["stream/httprange/stream.go: (*ReaderAt).laneReadAt", "stream/httprange/stream.go: (*ReaderAt).streamReadAt", "stream/httprange/stream.go: (*ReaderAt).openStream", "stream/httprange/stream.go: (*stream).kill"]}
{"id": "C11", "title": "HTTP range views stay inside their window without overflow", "statement": "A reader limited to [base, base+n) never requests a byte outside that window and behaves exactly like an io.SectionReader over the object, for every base, n, offset and length representable as int64 (no wrap-around).", "quantifier": "every int64 base, length, offset and buffer length", "why_tests_cant": "overflow corner cases around MaxInt64", "anchors": ["stream/httprange/range.go: NewRange", "stream/httprange/range.go: (view).locate", "stream/httprange/range.go: (view).end"]}
{"id": "C12", "title": "HTTP errors never disclose the URL's secrets", "statement": "No error returned by the range reader contains the userinfo, query or fragment of the URL it was given, including when the URL does not parse.", "quantifier": "every URL string", "why_tests_cant": "unbounded input; parse failures follow a different path", "anchors": ["stream/httprange/redact.go: redactURL", "stream/httprange/redact.go: redactRawURL", "stream/httprange/redact.go: redactURLError", "stream/fileserver/client.go: redactURLError"]}
{"id": "C13", "title": "Chunked objects: chunk arithmetic partitions the file", "statement": "For every total size and positive chunk size the expected chunk sizes are all positive and at most the chunk size, only the last may be smaller, and they sum to the total.", "quantifier": "every total size and chunk size", "why_tests_cant": "unbounded integers, boundary cases at exact multiples", "anchors": ["stream/fileserver/chunk.go: chunkCount", "stream/fileserver/chunk.go: expectedChunkSize"]}
{"id": "C14", "title": "Chunked source: Open(offset) streams exactly the tail of the object", "statement": "Open at any offset of a chunked source whose chunks hold a file yields a reader producing exactly the file's bytes from that offset on, across chunk boundaries.", "quantifier": "every content, chunk size and offset", "why_tests_cant": "offset/chunk boundary combinations are unbounded", "anchors": ["stream/fileserver/chunk.go: (*ChunkedSource).Open"]}
{"id": "C15", "title": "Chunked sink: resumable upload ends with the file's exact chunks", "statement": "Repeating State and Append with arbitrary interruptions at chunk granularity ends with every chunk holding exactly the corresponding slice of the source; State never claims a byte that is not stored, and a source that ends early or delivers extra bytes is reported.", "quantifier": "every content, chunk size, interruption point and history of partial uploads", "why_tests_cant": "interruptions can fall anywhere in an unbounded history", "anchors": ["stream/fileserver/chunk.go: (*ChunkedSink).State", "stream/fileserver/chunk.go: (*ChunkedSink).Append"]}
{"id": "C16", "title": "Resumable download: every committed file is exactly the content of one version", "statement": "If the source labels content by non-empty ETags (equal ETag means equal content), then after any history of Pull calls, each interrupted at any file-system step by crash, cancellation or read error, with the remote content changing between calls, any Pull that returns success has renamed into place a file equal to the content of the ETag it reported.", "quantifier": "every history of pulls, crash points, remote versions and read sizes", "why_tests_cant": "crash points and version changes interleave without bound", "anchors": ["fsutil/resumable.go: (ResumableCopyOption).Pull", "fsutil/resumable.go: readSidecar", "fsutil/resumable.go: writeSidecar", "fsutil/resumable.go: removePartFiles"]}
{"id": "C17", "title": "Resumable download never mixes two versions when validators are absent", "statement": "Even when the source reports no ETag, a successful Pull yields content of a single version: a part file left by one version is never completed with bytes of another.", "quantifier": "every history in which ETags may be absent", "why_tests_cant": "needs a stale part file from an earlier version, then a resumed pull", "anchors": ["fsutil/resumable.go: (ResumableCopyOption).Pull"]}
{"id": "C18", "title": "Resumable download leaves an existing destination alone until the final rename", "statement": "A Pull that does not succeed leaves the destination file as it was (absent or with its previous bytes); only the part file and its sidecar are written before the rename.", "quantifier": "every failure/crash point", "why_tests_cant": "crash can fall between any two file-system calls", "anchors": ["fsutil/resumable.go: (ResumableCopyOption).Pull"]}
{"id": "C19", "title": "Resumable upload: success means the sink holds the source's content", "statement": "When Push returns nil against a file-system sink, the committed file's bytes equal the source's bytes for the version pushed, whatever part files earlier interrupted pushes (same or different ETag) left behind.", "quantifier": "every history of pushes and interruptions, every content including the empty one", "why_tests_cant": "stale state from earlier interrupted uploads combines with every size", "anchors": ["fsutil/resumable.go: (ResumableCopyOption).Push", "fsutil/resumable_fs.go: (*FsSink).State", "fsutil/resumable_fs.go: (*FsSink).Append", "fsutil/resumable_fs.go: (*FsSink).Commit"]}
{"id": "C20", "title": "Safe write is atomic at every crash point", "statement": "At every point during SafeWriteOption.Write/Copy, including a crash between any two file-system calls and any write error, reading the destination path gives either the complete old state or the complete new content, never a mixture or a truncated file.", "quantifier": "every crash point, every failing call, every content", "why_tests_cant": "crash points cannot be exhaustively injected by unit tests", "anchors": ["fsutil/safe_write.go: (SafeWriteOption).Write", "fsutil/safe_write.go: (SafeWriteOption).safeOperation"]}
{"id": "C21", "title": "Safe write failure leaves nothing behind", "statement": "If Write returns an error (hook failure, short write, close or rename error), the destination is unchanged and the temporary file has been removed, as far as the file system lets it be removed; the destination is touched only by the final rename.", "quantifier": "every failing call at every step", "why_tests_cant": "combinations of hook/close/remove failures", "anchors": ["fsutil/safe_write.go: (SafeWriteOption).safeOperation"]}
{"id": "C22", "title": "Temp-file policies recognise exactly their own files", "statement": "Every name a temp-file policy creates is matched by the same policy (so clean-up finds it), its last element is at most 255 bytes, and it lies in the policy's directory; Match rejects names not of that form.", "quantifier": "every destination path and every random suffix", "why_tests_cant": "unbounded path strings, multi-byte names near the length limit", "anchors": ["fsutil/safe_write.go: (TempFilePolicyRandom).Match", "fsutil/safe_write.go: (TempFilePolicyRandom).pattern", "fsutil/safe_write.go: (TempFilePolicyDir).Match", "fsutil/safe_write.go: (TempFilePolicyDir).Create"]}
{"id": "C23", "title": "Random-name creation never touches an existing file and terminates", "statement": "OpenFileRandom/MkdirRandom either create a name that did not exist before, matching the pattern, or fail; an existing file is never opened or truncated, only 'already exists' is retried, and at most a fixed number of attempts is made.", "quantifier": "every set of existing names and every random sequence", "why_tests_cant": "adversarial random sequences and file sets", "anchors": ["fsutil/open_random.go: openRandom", "fsutil/open_random.go: OpenFileRandom", "fsutil/open_random.go: MkdirRandom", "fsutil/open_random.go: randomUint32Padded"]}
{"id": "C24", "title": "Path resolution is confined, terminating and symlink-free", "statement": "For any symlink arrangement, ResolvePath terminates; if it succeeds the result is a local path none of whose proper prefixes (nor itself, unless the last component is kept) is a symlink, and it names the object the kernel-style walk of the original path reaches; a link that is absolute or climbs above the root yields ErrPathEscapes, too many links yield ELOOP.", "quantifier": "every finite file system and every path", "why_tests_cant": "link graphs include cycles and unbounded nesting", "anchors": ["fsutil/resolve_symlink.go: ResolvePath", "fsutil/resolve_symlink.go: ResolveSymlink"]}
{"id": "C25", "title": "UTF-8 truncation is the longest rune-aligned prefix", "statement": "TruncateUTF8(s, n) is a prefix of s of at most n bytes, never cuts inside a rune, is the longest such prefix, and is valid UTF-8 whenever s is.", "quantifier": "every byte string and every n", "why_tests_cant": "all byte strings incl. invalid ones", "anchors": ["fsutil/truncate_utf8.go: TruncateUTF8"]}
{"id": "C26", "title": "Path prefix enumeration", "statement": "PathFromHead yields every non-empty proper-to-full prefix of a cleaned path in increasing order, PathFromTail the same set in decreasing order, each exactly once.", "quantifier": "every path", "why_tests_cant": "unbounded paths, leading/trailing separators", "anchors": ["fsutil/pathutil/head_tail.go: PathFromHead", "fsutil/pathutil/head_tail.go: PathFromTail", "vroot/internal/paths/head_tail.go: PathFromHead"]}
{"id": "C27", "title": "Chmod masking is a projection onto what the platform keeps", "statement": "Masking a mode is idempotent, never sets a bit the platform cannot store, and agrees with what a chmod followed by stat reports on that platform family.", "quantifier": "every 32-bit mode", "why_tests_cant": "2^32 modes x platforms", "anchors": ["fsutil/chmod_mask.go: MaskChmodMode", "fsutil/chmod_mask.go: MaskChmodModeUnix", "fsutil/chmod_mask.go: MaskChmodModeWindows", "fsutil/chmod_mask.go: MaskChmodModePlan9"]}
{"id": "C28", "title": "Tree copy reproduces the source tree", "statement": "CopyAll on success makes every regular file and directory under root appear at the same relative path in the destination with the same bytes, and writes only under the destination paths named by the source; CopyPath copies the listed paths only and never writes outside the destination root.", "quantifier": "every finite source tree, every path list", "why_tests_cant": "unbounded trees, path shapes and failure points", "anchors": ["fsutil/copy_fs.go: (CopyFsOption).CopyAll", "fsutil/copy_fs.go: (CopyFsOption).CopyPath", "fsutil/copy_fs.go: (CopyFsOption).copyEntry"]}
{"id": "C29", "title": "Tar fs: the last archive entry for a path wins and lookups agree with listings", "statement": "For any archive, opening a path yields the last entry recorded for it, and a directory's listing contains exactly the names that can be opened under it.", "quantifier": "every sequence of archive entries (duplicates, files shadowing directories and vice versa)", "why_tests_cant": "entry order and shadowing combinations are unbounded", "anchors": ["tarfs/entdir.go: (*dir).addChild", "tarfs/fs.go: New", "tarfs/entdir.go: (*openDir).ReadDir"]}
{"id": "C30", "title": "Tar fs: link resolution never panics or diverges and stays inside the archive", "statement": "Open/Stat/ReadLink on any path of any archive returns a result or an error in finitely many steps: symlinks and hard links (including to '.', '..', to each other and in cycles) never crash, hang or resolve outside the archive root.", "quantifier": "every archive and every path", "why_tests_cant": "link graphs are unbounded and adversarial archives are the normal threat model", "anchors": ["tarfs/entdir.go: (*dir).openChildResolve", "tarfs/fs.go: (*Fs).findFile", "tarfs/fs.go: (*Fs).resolveHardlink", "tarfs/enthardlink.go: (*hardlinkOverlay).open"]}
{"id": "C31", "title": "Tar fs: sparse files are reconstructed exactly", "statement": "For every legal sparse map of a file, reading the file gives size bytes in which every data fragment appears at its offset and every hole reads as zero, independent of how reads are split.", "quantifier": "every sparse map and content", "why_tests_cant": "unbounded fragment layouts incl. empty fragments and trailing holes", "anchors": ["tarfs/copied_go_std.go: invertSparseEntries", "tarfs/reader.go: makeReader"]}
{"id": "C32", "title": "Tar numeric fields decode to the encoded value", "statement": "Octal and base-256 header fields decode to the number they encode (negative base-256 included) or are rejected; overflow of int64 is rejected.", "quantifier": "every field content", "why_tests_cant": "unbounded encodings, two's complement edge cases", "anchors": ["tarfs/copied_go_std.go: (*parser).parseNumeric", "tarfs/copied_go_std.go: (*parser).parseOctal"]}
{"id": "C33", "title": "Directory handle paging returns every entry exactly once", "statement": "Calling ReadDir(n) repeatedly with any positive n's until io.EOF, on an unchanged directory, returns each entry exactly once in a fixed order, and ReadDir(-1) returns the rest; rewinding starts over. Holds for tarfs, synthfs, overlayfs and sftpfs directory handles.", "quantifier": "every directory and every sequence of batch sizes and rewinds", "why_tests_cant": "unbounded call sequences", "anchors": ["tarfs/entdir.go: (*openDir).ReadDir", "vroot/synthfs/handle_dir.go: (*dirHandle).readEntries", "vroot-adapter/overlayfs/file.go: (*mergedDir).readEntries", "vroot-adapter/sftpfs/sftpfs.go: (*sftpFile).Readdir"]}
{"id": "C34", "title": "Walk visits everything reachable, once per path, and terminates on link cycles", "statement": "vroot.WalkDir calls the callback for every entry reachable from the root unless the callback asked to skip it, terminates on symlink cycles, and an error on one entry that the callback chooses to ignore does not hide its siblings.", "quantifier": "every tree, link graph and callback behaviour", "why_tests_cant": "callback decisions and error points multiply without bound", "anchors": ["vroot/walk.go: WalkDir", "vroot/walk.go: walkDir_", "vroot/walk.go: (*walkState).recordVisited"]}
{"id": "C35", "title": "Prefix view never addresses anything outside its prefix", "statement": "Every path a PathPrefixFs forwards to its inner file system is the prefix itself or lexically below it, for every argument of every method; arguments that climb out are rejected, and removing the view's own root is refused.", "quantifier": "every method and every path string", "why_tests_cant": "unbounded strings with '..', '.', repeated separators", "anchors": ["vroot/pathprefix.go: (*PathPrefixFs).resolvePath", "vroot/pathprefix.go: (*PathPrefixFs).RemoveAll"]}
{"id": "C36", "title": "Read-only view never changes the inner file system", "statement": "No sequence of calls on a ReadOnlyFs/ReadOnlyRoot, on roots opened from it and on files opened through it reaches a mutating operation of the wrapped file system, for every combination of open flags.", "quantifier": "every call history and every open-flag integer", "why_tests_cant": "flag combinations and derived handles multiply", "anchors": ["vroot/readonly.go: (*ReadOnlyFs).OpenFile", "vroot/readonly.go: (*ReadOnlyRoot).OpenRoot", "vroot/readonly.go: (*ReadOnlyFile).Write", "vroot/internal/openflag/flag.go: WriteOp"]}
{"id": "C37", "title": "In-memory file equals an abstract byte array with holes", "statement": "For any history of writes, truncates, seeks and reads through any number of handles, the content of an in-memory file is that of an abstract byte array: bytes never written (or cut off by a truncate and re-exposed by growth) read as zero, and every handle keeps its own position.", "quantifier": "every operation history over every number of handles", "why_tests_cant": "buffer capacity reuse makes stale bytes appear only after particular grow/truncate/write sequences", "anchors": ["vroot/synthfs/view_mem_buf.go: (*memBuf).writeAt", "vroot/synthfs/view_mem_buf.go: (*memBuf).truncate", "vroot/synthfs/view_mem_buf.go: (*memBuf).grow", "vroot/synthfs/view_mem_buf.go: (*memHandle).Seek"]}
{"id": "C38", "title": "Appends through several handles lose nothing", "statement": "When several handles opened with O_APPEND on one in-memory file write concurrently, every write's bytes appear exactly once in the final content.", "quantifier": "every interleaving of appends", "why_tests_cant": "needs a particular interleaving of two locked sections", "anchors": ["vroot/synthfs/view_mem_buf.go: (*memHandle).Write"]}
{"id": "C39", "title": "Synthetic root confinement", "statement": "For every tree, every path and every symlink arrangement (also after renames of directories), a name resolved through a Root or a sub-root obtained by OpenRoot denotes a node inside that root's directory; resolution takes at most 40 link hops and always terminates.", "quantifier": "every tree, sub-root, path and link arrangement", "why_tests_cant": "link graphs and sub-roots are unbounded", "anchors": ["vroot/synthfs/tree.go: (*state).resolve", "vroot/synthfs/tree.go: (*state).resolveParent", "vroot/synthfs/root.go: (*Root).OpenRoot"]}
{"id": "C40", "title": "Synthetic tree stays a tree under any history", "statement": "After any sequence of Mkdir, OpenFile, Symlink, Link, Remove, RemoveAll, Rename, AddFile operations: listings and lookups agree, names are unique per directory, each directory's parent is the directory listing it, no directory contains itself, and an operation affects only the names it was given.", "quantifier": "every finite operation history", "why_tests_cant": "unbounded histories", "anchors": ["vroot/synthfs/node.go: (*dir).addEntry", "vroot/synthfs/node.go: (*dir).removeEntry", "vroot/synthfs/remove.go: (*Root).RemoveAll", "vroot/synthfs/mkdir.go: (*Root).MkdirAll"]}
{"id": "C41", "title": "Synthetic rename moves exactly one subtree and loses nothing", "statement": "Rename either fails and changes nothing, or the subtree formerly at the old name is afterwards at the new name with its content; it refuses to move a directory below itself, and nothing else becomes unreachable except the replaced entry.", "quantifier": "every tree and every pair of names", "why_tests_cant": "pairs of overlapping paths", "anchors": ["vroot/synthfs/rename.go: (*Root).Rename"]}
{"id": "C42", "title": "Ingestion resolvers do what they promise", "statement": "With MergeKeep no entry that existed before AddFS/AddFile is changed or removed; with MergeOverwrite every source entry ends up in place; with FailOnConflict an existing leaf makes the call fail and is untouched; an AddFunc answering Keep never removes an existing entry.", "quantifier": "every existing tree and every source tree", "why_tests_cant": "conflict patterns (dir over file, file over dir, symlink) are unbounded", "anchors": ["vroot/synthfs/add.go: (*Root).AddFS", "vroot/synthfs/add.go: (*Root).addFSWalk", "vroot/synthfs/add.go: (*Root).materializeDir", "vroot/synthfs/add_decision.go: MergeKeep", "vroot/synthfs/add_decision.go: FailOnConflict"]}
{"id": "C43", "title": "A file view is released only when no name refers to it", "statement": "The backing view of a file is closed only once its last name is removed or replaced, so a hard-linked file stays usable after one of its names is removed, and is closed at most once.", "quantifier": "every history of Link, Remove, Rename, RemoveAll", "why_tests_cant": "depends on histories with several links", "anchors": ["vroot/synthfs/link.go: (*Root).Link", "vroot/synthfs/remove.go: (*Root).Remove", "vroot/synthfs/rename.go: (*Root).Rename"]}
{"id": "C44", "title": "Overlay lookup and listing implement one merged tree", "statement": "For every stack of layers and whiteout/opaque marks, the name lookup and the directory listing agree with a single merged tree: a name is visible iff it appears in the merged listing of its parent, with the type and content of the shallowest unmasked layer holding it.", "quantifier": "every stack of layers, every set of marks, every path", "why_tests_cant": "layers x marks x path shapes are unbounded", "anchors": ["vroot-adapter/overlayfs/merged.go: (*overlayState).lookupFrom", "vroot-adapter/overlayfs/merged.go: (*overlayState).readDir", "vroot-adapter/overlayfs/state.go: (*overlayState).cutFrom", "vroot-adapter/overlayfs/state.go: (*overlayState).childCut"]}
{"id": "C45", "title": "Overlay removal hides exactly the removed subtree", "statement": "After a successful Remove/RemoveAll of a name, that name and everything under it is gone from the merged view and stays gone after restart, and every other name is unchanged.", "quantifier": "every stack, marks and name", "why_tests_cant": "interaction of whiteouts with every layer combination", "anchors": ["vroot-adapter/overlayfs/remove.go: (*Fs).unlink", "vroot-adapter/overlayfs/remove.go: (*Fs).remove", "vroot-adapter/overlayfs/state.go: (*overlayState).setWhiteout"]}
{"id": "C46", "title": "Overlay mkdir always yields an empty directory", "statement": "After a successful Mkdir the new directory is empty in the merged view, whatever the lower layers hold or held under that name, and nothing else changes.", "quantifier": "every stack and history", "why_tests_cant": "remove/mkdir histories over lower content", "anchors": ["vroot-adapter/overlayfs/mkdir.go: (*Fs).mkdirOne", "vroot-adapter/overlayfs/state.go: (*overlayState).setOpaque"]}
{"id": "C47", "title": "Overlay copy-up is invisible", "statement": "Bringing a lower file or directory into the top layer for writing changes nothing visible in the merged view: same names, types, contents, and the permissions of every other entry (parent directories included) stay as they were.", "quantifier": "every stack and every name", "why_tests_cant": "needs several lowers disagreeing about a parent", "anchors": ["vroot-adapter/overlayfs/copyup.go: (*CopyUpPolicyWork).CopyUp", "vroot-adapter/overlayfs/copyup.go: (*CopyUpPolicyWork).materializeParents", "vroot-adapter/overlayfs/write.go: (*Fs).copyUp"]}
{"id": "C48", "title": "Overlay never writes to a lower layer", "statement": "No operation sequence on an overlay modifies any lower layer's tree or marks.", "quantifier": "every operation history", "why_tests_cant": "unbounded histories; includes handles opened for reading", "anchors": ["vroot-adapter/overlayfs/open.go: (*Fs).openWrite", "vroot-adapter/overlayfs/fs.go: (*Fs).OpenFile", "vroot-adapter/overlayfs/write.go: (*Fs).mutateLocked"]}
{"id": "C49", "title": "Overlay rename moves the merged subtree", "statement": "A successful Rename makes the merged view at the new name equal to what was at the old name, empties the old name, leaves every other name unchanged; refused renames change nothing visible.", "quantifier": "every stack, marks, pair of names", "why_tests_cant": "mark rebasing and lower leftovers at both ends", "anchors": ["vroot-adapter/overlayfs/rename.go: (*Fs).rename", "vroot-adapter/overlayfs/rename.go: (*Fs).renameDirCheck", "vroot-adapter/overlayfs/state.go: (*overlayState).renameSubtree"]}
{"id": "C50", "title": "Deleted lower content never resurfaces at a crash or store failure", "statement": "At every point between two persistent steps of Remove, Mkdir, Create-over-whiteout and Rename (crash or store error), a restart shows no lower entry that was hidden before the operation and is not the operation's own source.", "quantifier": "every crash point of every mutating operation on every stack", "why_tests_cant": "crash points cannot be enumerated by tests", "anchors": ["vroot-adapter/overlayfs/rename.go: (*Fs).rename", "vroot-adapter/overlayfs/mkdir.go: (*Fs).mkdirOne", "vroot-adapter/overlayfs/remove.go: (*Fs).unlink", "vroot-adapter/overlayfs/open.go: (*Fs).openWrite"]}
{"id": "C51", "title": "Overlay masking in memory equals masking on disk after any history", "statement": "After any sequence of mark changes, reloading the store gives exactly the marks the running overlay uses, so a restart shows the same merged view.", "quantifier": "every sequence of set/clear calls with arbitrary names", "why_tests_cant": "SQL range deletes and in-memory prefix scans must agree on every byte string", "anchors": ["vroot-adapter/overlayfs/state.go: (*overlayState).setWhiteout", "vroot-adapter/overlayfs/state.go: (layerMask).dropSubtree", "vroot-adapter/overlayfs/metadatastore_sqlite.go: (*MetadataStoreSQLite).SetWhiteout", "vroot-adapter/overlayfs/metadatastore_sqlite.go: deleteSubtree"]}
{"id": "C52", "title": "Open-handle removal guard counts correctly", "statement": "With DisableOpenFileRemoval, Remove of a name succeeds only if no open handle on it exists and RemoveAll only if none exists on it or below; closing a handle twice counts once. Holds for overlayfs, and for synthfs Remove.", "quantifier": "every history of opens, (double) closes and removals", "why_tests_cant": "unbounded histories", "anchors": ["vroot-adapter/overlayfs/file.go: (*handleTracker).countSubtree", "vroot-adapter/overlayfs/file.go: (*trackedFile).Close", "vroot-adapter/overlayfs/remove.go: (*Fs).removableTree", "vroot/synthfs/remove.go: (*Root).Remove", "vroot/synthfs/handle.go: (*fileHandle).Close"]}
{"id": "C53", "title": "SFTP fs: arguments cannot escape the base directory and removal does not follow links", "statement": "Every path sent to the server by SftpFs is the base or lexically below it, for every argument; RemoveAll deletes only entries of the subtree named, never through a symlink, and removes all of it when no server error occurs.", "quantifier": "every path string and every remote tree", "why_tests_cant": "unbounded strings and trees", "anchors": ["vroot-adapter/sftpfs/sftpfs.go: (*SftpFs).resolvePath", "vroot-adapter/sftpfs/sftpfs.go: (*SftpFs).removeAll", "vroot-adapter/sftpfs/sftpfs.go: isLocalSlash"]}
{"id": "C54", "title": "Concatenated reader: errors name the segment that failed", "statement": "When Read or ReadAt on the concatenated reader fails with a MultiReadError, its Index and ReaderOff identify the segment that was asked and the offset inside it.", "quantifier": "every segment layout, every failing call in every history", "why_tests_cant": "the index depends on the history of earlier reads", "anchors": ["stream/multi_read_at_closer.go: MultiReadError", "stream/multi_read_at_closer.go: (*multiReadAtSeekCloser).Read", "stream/multi_read_at_closer.go: (*multiReadAtSeekCloser).readAt"]}
{"id": "C55", "title": "synthfs: opening a file with O_TRUNC always returns", "statement": "OpenFile on an existing synthfs file with O_TRUNC and a writing mode returns, whatever the file's view answers, and with a view that truncates it answers as the same open without O_TRUNC.", "quantifier": "every tree built by any history, every name, every answer of the view", "why_tests_cant": "the failing view is supplied by the user; a test with the memory views never sees it", "anchors": ["vroot/synthfs/open.go: (*Root).OpenFile", "vroot/synthfs/handle.go: (*fileHandle).Close"]}
{"id": "C56", "title": "sftpfs: opening or making what exists leaves its permissions alone", "statement": "OpenFile with O_CREATE on an existing file and MkdirAll on an existing directory leave its permissions as they are; a file that OpenFile creates gets the permissions asked for, and nothing else on the server changes.", "quantifier": "every server tree with symlinks, every base, name and permission", "why_tests_cant": "permissions of what already exists are rarely set to something else in tests", "anchors": ["vroot-adapter/sftpfs/sftpfs.go: (*SftpFs).OpenFile", "vroot-adapter/sftpfs/sftpfs.go: (*SftpFs).MkdirAll", "vroot-adapter/sftpfs/sftpfs.go: (*SftpFs).Create"]}
{"id": "C57", "title": "fileserver: HTTPClient gives every name its own object", "statement": "HTTPClient addresses the object of a name by a URL whose path is the base and one further segment that decodes to the name, so different names never share an object, and against a plain HTTP store any history of Get, Stat and Put behaves as a map from names to contents.", "quantifier": "every base URL, every name of arbitrary bytes, every history of calls", "why_tests_cant": "tests use short names and a base URL without query; collisions of escaped names cannot be enumerated", "anchors": ["stream/fileserver/client.go: (*HTTPClient).objectURL", "stream/fileserver/client.go: (*HTTPClient).Get", "stream/fileserver/client.go: (*HTTPClient).Put"]}
{"id": "C58", "title": "fileserver: Get delivers the object from the offset on, Stat its size", "statement": "Whatever the server answers truthfully, a successful Get delivers the object's bytes from the requested offset on together with its size; fs.ErrNotExist is reported exactly for a missing object; every response body is handed over or closed exactly once.", "quantifier": "every object, offset, and truthful response (status, Content-Length, Content-Range, body)", "why_tests_cant": "the test server is net/http's ServeContent, which always answers the range asked for", "anchors": ["stream/fileserver/client.go: (*HTTPClient).Get", "stream/fileserver/client.go: (*HTTPClient).Stat", "stream/fileserver/client.go: (*HTTPClient).Put", "stream/fileserver/client.go: parseTotalFromContentRange"]}
{"id": "C59", "title": "synthfs: a ranged view is exactly the bytes of its range", "statement": "A handle of a view made by NewBytesView or NewRangedView, nested ranges included, behaves under every history of Read, ReadAt, Seek, Stat and Close as a read-only cursor over exactly the bytes [off, off+n) of the inner content at the time of the call, and Stat reports their number.", "quantifier": "every content, offset and length up to MaxInt64, every nesting, every history of calls while the inner file changes", "why_tests_cant": "tests read one range of one buffer; overflow, nesting and shrinking inner files need all values", "anchors": ["vroot/synthfs/view_bytes.go: bytesHandle", "vroot/synthfs/view_fs.go: NewRangedView, rangedHandle", "vroot/synthfs/handle.go: fileHandle"]}
{"id": "C60", "title": "sqlvfs: sqlite's lock levels exclude each other over the file system's whole-file lock", "statement": "Whatever calls any number of sqlvfs handles of one database make and however they interleave with the waits inside flock, a handle at RESERVED or above is the only handle with a lock, a handle keeps seeing one version of the file while it is locked, a read-only handle never gets to RESERVED, and a wait ends when the others are unlocked.", "quantifier": "every number of handles, every interleaving of Lock, Unlock and flock steps, failing system calls included", "why_tests_cant": "interleavings of several processes inside flock conversions are not reachable from a test", "anchors": ["vroot-adapter/overlayfs/internal/sqlvfs/file.go: (*File).Lock", "vroot-adapter/overlayfs/internal/sqlvfs/file.go: (*File).Unlock", "vroot/osfs/lock_unix.go: lock"]}
{"id": "C61", "title": "sqlvfs: every name sqlite uses is a clean local path, and its side files are siblings", "statement": "For every byte string, the path that sqlvfs asks the file system for is empty or clean and local; FullPathname is idempotent; a name with a suffix such as -journal or -wal appended is the sibling of the database; and the DSN of a name is read back by sqlite as that name.", "quantifier": "every byte string as name, suffix and query", "why_tests_cant": "names with '..', '?', '%', '#' and repeated slashes combine in too many ways", "anchors": ["vroot-adapter/overlayfs/internal/sqlvfs/sqlvfs.go: cleanPath", "vroot-adapter/overlayfs/internal/sqlvfs/sqlvfs.go: (*FS).FullPathname", "vroot-adapter/overlayfs/internal/sqlvfs/sqlvfs.go: (*FS).DSN"]}
{"id": "C62", "title": "overlayfs: a copy-up is all or nothing", "statement": "Whatever the backend answers to each call and wherever the process dies, a copy-up leaves its name in the top either absent or with the whole content below, changes nothing the top had, adds at most directories on the way and one temporary, and after the next New the staging directory is empty and the copy-up can be made again.", "quantifier": "every source entry, path, top, sequence of backend answers (served, refused, done but reported failed) and crash point; every history of copy-ups", "why_tests_cant": "a crash or a failing call between any two steps of the staging sequence cannot be arranged in a test", "anchors": ["vroot-adapter/overlayfs/copyup.go: (*CopyUpPolicyWork).CopyUp", "vroot-adapter/overlayfs/copyup.go: (*CopyUpPolicyWork).copyRegular", "vroot-adapter/overlayfs/copyup.go: (*CopyUpPolicyWork).materializeParents", "vroot-adapter/overlayfs/datasource.go: (*DataSource).sweepWork, ensureCanonical", "vroot-adapter/overlayfs/fs.go: New"]}
{"id": "C63", "title": "io/fs bridges: only valid paths cross, and only cleaning changes them", "statement": "An fs.FS made by ToIoFs or ToIoFsRoot passes a call on exactly when the name is a valid io/fs path without NUL, unchanged; an Fs made by FromIoFs refuses every writing call, refuses names that leave, and asks the fs.FS only valid paths, namely the cleaned name; crossing both bridges leaves a name cleaned and nothing else; the path normalizers pass on the same call with cleaned paths and untouched symlink targets.", "quantifier": "every byte string as name, every method, every open flag", "why_tests_cant": "names mix '.', '..', empty elements, NUL and broken UTF-8 in too many ways", "anchors": ["vroot/iofs_to.go: validFsPath", "vroot/iofs_to.go: ioFs", "vroot/iofs_from.go: (*ioFsAsFs).resolvePath", "vroot/iofs_from.go: ioFsAsFs", "vroot/pathnormalizer.go: PathNormalizerFs, PathLocalizerFs"]}
{"id": "C64", "title": "io/fs bridges: listings lose nothing", "statement": "Listing a directory through FromIoFs or ToIoFs gives every entry the wrapped handle hands out, with its name and info and the handle's error, and vroot.ReadDir gives all of them sorted by name.", "quantifier": "every sequence of entries, with infos that are there, gone or failing, with and without an error beside them", "why_tests_cant": "a directory handle that fails half way, or entries that vanish between ReadDir and Info, cannot be arranged with the real file systems of the tests", "anchors": ["vroot/iofs_from.go: (*expandedFile).Readdir", "vroot/iofs_from.go: (*expandedFile).Readdirnames", "vroot/iofs_to.go: (*fsFile).ReadDir", "vroot/funcs.go: ReadDir"]}
{"id": "C65", "title": "overlayfs: a sub-root confines everything done through it", "statement": "For every merged view, every name and every symlink in it, each name an operation on an OpenRoot view works on is the view's directory or below it (strictly below for removals and renames), depends on nothing outside it, is the name the parent view resolves for the longer path, and is taken by the top's file system to that very place inside the directory; sub-roots of sub-roots nest.", "quantifier": "every merged view, base, name, entry point and chain of OpenRoot calls; every tree of the top", "why_tests_cant": "tests try a few escaping links; chains of links through linked directories, dangling links under O_CREATE and directories replaced after OpenRoot have unboundedly many shapes", "anchors": ["vroot-adapter/overlayfs/resolve.go: (*Fs).name, resolver, (*Fs).resolve, (*Fs).locate", "vroot-adapter/overlayfs/fs.go: (*Fs).OpenRoot", "vroot-adapter/overlayfs/open.go: (*Fs).openWrite", "vroot-adapter/overlayfs/remove.go: (*Fs).remove, (*Fs).removeAll", "vroot-adapter/overlayfs/rename.go: (*Fs).rename", "vroot-adapter/overlayfs/write.go: namesSelf"]}
{"id": "C66", "title": "overlayfs: MkdirAll makes exactly the missing directories", "statement": "A successful MkdirAll makes all the missing directories from the deepest existing one down to the name and nothing else, each where its name says; unless the top fails it succeeds whenever what exists of the name is directories, what it refuses it refuses before anything is made, and a failure of the top leaves a leading part of the missing directories.", "quantifier": "every merged view, base and name, written in any way", "why_tests_cant": "how much of the path exists, through which links, and what stands in the way combine without bound", "anchors": ["vroot-adapter/overlayfs/mkdir.go: (*Fs).mkdirAll", "vroot-adapter/overlayfs/mkdir.go: (*Fs).mkdirAllName", "vroot-adapter/overlayfs/write.go: ancestry"]}
{"id": "C67", "title": "tarfs: every entry of an archive is found in its place and opens as its own content", "statement": "For every archive of entries of any kind - extended headers before them, global headers, directories and links, plain files, and sparse files with a map in each of the three formats - Sections gives each entry the start and end of its header, the end of its stored bytes and the holes that were written for it; a plain file opens as its stored bytes, and a sparse one reads through any history of Read, ReadAt and Seek as the file its map describes.", "quantifier": "every list of well-formed entries, every trailer, every history of reads", "why_tests_cant": "the place of an entry depends on everything before it; the sequences of extended headers, padded bodies and map formats that may precede one are unbounded, and the tests' archives hold a handful", "anchors": ["tarfs/headers.go: Sections", "tarfs/headers.go: reconstructSparse", "tarfs/headers.go: handleSparseFile", "tarfs/headers.go: readGNUSparsePAXHeaders", "tarfs/reader.go: makeReader"]}
{"id": "C68", "title": "resumable upload and download end to end: a successful Push means the file is stored, and it comes back", "statement": "Pushing a file in chunks over HTTP with any number of interruptions - requests lost before or after they took effect, bodies stored in part, error statuses, failing local reads and temporary files - never touches another object, never loses a leading run of stored chunks; a Push that returns nil leaves every chunk stored exactly, an undisturbed one always does; and downloading delivers the file from any offset.", "quantifier": "every file, chunk size, base URL and naming, every history of pushes with any fault at any request, every download history", "why_tests_cant": "each request of each attempt can fail in several ways, and the attempts build on what the earlier ones left", "anchors": ["fsutil/resumable.go: (ResumableCopyOption).Push", "stream/fileserver/chunk.go: (*ChunkedSink).State", "stream/fileserver/chunk.go: (*ChunkedSink).Append", "stream/fileserver/chunk.go: (*ChunkedSource).Open", "stream/fileserver/client.go: (*HTTPClient).Put, Stat, Get"]}
{"id": "C69", "title": "osfs.Fs: every path handed to package os is the root or below it, and is the place the name has there", "statement": "A name is taken exactly when it is relative and never climbs above its start; every method makes one call of its counterpart in package os on the root's path with the name's elements appended, or none; the root itself is never removed; and the kernel takes that path to the place the name has from the root directory.", "quantifier": "every root, name, method, and tree with symlinks", "why_tests_cant": "names combine '.', '..', empty elements and symlinks without bound; tests try a handful of escapes", "anchors": ["vroot/osfs/fs.go: (*Fs).resolvePath", "vroot/osfs/fs.go: endsWithDot", "vroot/osfs/fs.go: (*Fs).Remove, (*Fs).RemoveAll, (*Fs).Lstat, (*Fs).Lchown, (*Fs).ReadLink, (*Fs).Rename, (*Fs).Link, (*Fs).Symlink"]}
{"id": "C70", "title": "aferofs/synth: a tree of entries under Mkdir, MkdirAll, OpenFile, Chmod, Remove, RemoveAll, Rename, AddFile and Reallocate", "statement": "Over every history of calls, no directory has two entries of one name; each call succeeds exactly when the path, the permissions and the entries there allow it, changes exactly the entries it names and no others, and changes nothing when it fails; and every view given to the tree is closed once when, and only when, its file goes.", "quantifier": "every history of calls, every path, mode, umask and set of flags", "why_tests_cant": "the state is a tree of any depth and the calls act on each other's results; tests run a few sequences", "anchors": ["aferofs/synth/fs.go: (*Fs).mkdir, mkdirAll, openFile, Remove, removeFromParent, removeAll, removeAllFrom, rename, Chmod, Stat, find, findParent, findWritableDir", "aferofs/synth/fs_link.go: (*Fs).AddFile, addFile, Reallocate", "aferofs/synth/dir.go: (*dir).AddDirent, RemoveName, notifyClose", "aferofs/synth/dirent.go: hasPerm, IsSearchableDir", "aferofs/synth/file.go: (*virtualFileData).Chmod, Stat, notifyClose", "aferofs/synth/impl_inmem.go: (*MemFileAllocator).Allocate"]}
{"id": "C71", "title": "aferofs/synth: the bytes of in-memory, ranged and temporary files", "statement": "An in-memory file, through any number of handles, is an array of bytes with zeroes where nothing was written: every read, write, seek, truncate and stat gives what the array gives, whatever capacity the runtime leaves. A ranged view reads exactly the bytes of its range, in any pattern of reads, and its Stat size is that number. A temporary-file view touches no other file and removes its own when closed.", "quantifier": "every history of calls over any number of handles, every range and file, every spare capacity, every directory", "why_tests_cant": "stale bytes past the length appear only for particular capacities and sequences of truncate and write; sizes and leaks are not observed by the tests", "anchors": ["aferofs/synth/impl_inmem_file.go: (*memFile).ReadAt, WriteAt, Truncate, grow", "aferofs/synth/impl_inmem_file.go: (*memFileHandle).Read, ReadAt, Seek, Truncate, Write, WriteAt", "aferofs/synth/flag.go: flagReadable, flagWritable", "aferofs/synth/impl_fslink.go: NewRangedFileView, (*rangedFileView).Open, Stat, (*sectionFile).Stat", "aferofs/synth/impl_tmpdir.go: (*tmpDirFileView).Close, create, Open, Stat, Truncate"]}
{"id": "C72", "title": "aferofs/synth: directory handles, closing, metadata", "statement": "Readdir hands out, page by page and each entry once, the listing taken when it was first called after opening or seeking, and says io.EOF only when all of it was given. After Close every call is refused and the file below is closed once. A file's Stat shows the mode and time last set and the current size.", "quantifier": "every sequence of page sizes, seeks and changes of the directory; every sequence and interleaving of calls and Closes; every sequence of Chmod, Chtimes, Open and Write", "why_tests_cant": "interleavings of the check and the store in the wrapper are not reproducible in a test; page sizes and seeks combine freely", "anchors": ["aferofs/synth/dir_handle.go: (*dirHandle).Readdir, Readdirnames, Seek", "aferofs/internal/closable/file.go: (*Closable).beforeEach", "aferofs/synth/file.go: newVirtualFileData, init, Open, Stat, StatFile, Chmod, Chtimes"]}
{"id": "C73", "title": "wrapping errors keeps their causes, and nobody else's error changes", "statement": "WrapPathErr, WrapLinkErr and serr's Prefix and Gather functions give nil exactly for nil; errors.Is finds in the result exactly what it found in what was given; the operation and paths given appear in it; and every error held elsewhere stays as it was. translateEscape replaces the escape error of package os by vroot.ErrPathEscapes below the same outermost PathError or LinkError and returns every other error as it is.", "quantifier": "every heap of errors sharing causes with each other, every target, every list of members with nils among them", "why_tests_cant": "whether two errors share a cause, and what is found below several layers of both kinds of wrapping, is never set up by the tests", "anchors": ["fsutil/wrap_path_err.go: WrapPathErr", "fsutil/wrap_path_err.go: WrapLinkErr", "stream/internal/serr/prefix.go: Prefix, PrefixUnchecked", "stream/internal/serr/gathered.go: Gather, GatherChecked, GatherUnchecked, GatherPrefixed", "vroot/osfs/root.go: translateEscape"]}
{"id": "C74", "title": "aferofs adapters: names, read-only bridging, listings and the record of calls", "statement": "ValidPathFs makes the same call with every name as the valid io/fs path of its elements. IoFsAdapter refuses every writing call, on the file system and on files opened through it, asks the fs.FS only for valid paths, unchanged, and lists directories; IoFs passes listings on. ObservableFs records each call before and after, in order, with what it was given and what it gave back.", "quantifier": "every byte string as name, every method, flag and set of methods of the wrapped file; every history of calls and of buffers used again", "why_tests_cant": "which optional methods a file has and whether a caller uses its buffer again vary freely; the module has no tests for these files", "anchors": ["aferofs/valid_path.go: toFsPath, (*ValidPathFs).modifyPath", "aferofs/iofs.go: IoFsAdapter, NewIoFsAdapter, FsFile, (*readDirFile).ReadDir", "aferofs/operation.go: ValidPathErr, ReadAt, Readdir, Readdirnames, Seek, Sync, Truncate, Write, WriteAt, WriteString", "aferofs/observable.go: (*ObservableFs).recordOp, beforeEach, afterEach"]}
{"id": "C75", "title": "synthfs, overlayfs, tarfs: every call returns", "statement": "Whatever calls any number of goroutines make at once on synthfs roots and handles, overlays, their directory handles and tarfs handles, in any interleaving, no schedule goes on for ever and none ends with a call still waiting for a lock: at its end every call has returned and no lock is held.", "quantifier": "any number of goroutines, any calls, any schedule, any nesting of views, overlays and sources that is not circular; sync.RWMutex with waiting writers holding new readers back", "why_tests_cant": "a deadlock needs one particular interleaving; the race tests try a few methods against each other for a moment, and never stacked file systems", "anchors": ["vroot/synthfs/handle.go: (*fileHandle).Close, isClosed, Read, Write, Seek, Stat", "vroot/synthfs/handle_dir.go: (*dirHandle).Close, Seek, readEntries, ReadDir", "vroot/synthfs/open.go: (*Root).OpenFile, openFileNode", "vroot/synthfs/add.go: (*Root).AddFile, AddFS", "vroot/synthfs/view_mem_buf.go: (*memHandle).Read, Write, Seek", "vroot/synthfs/view_fs.go: (*fsView).Open, Stat, (*rangedView).Open", "vroot-adapter/overlayfs/file.go: (*mergedDir).load, mutate, Close, (*trackedFile).Close, (*handleTracker).acquire", "vroot-adapter/overlayfs/write.go: (*Fs).mutateResolved, openTopDir", "tarfs/entfile.go: (*openFile).Read, Seek", "tarfs/entdir.go: (*openDir).Seek, ReadDir"]}
{"id": "C76", "title": "synthfs, overlayfs, tarfs: shared fields are touched only under their lock", "statement": "Whatever calls any number of goroutines make at once, no two of them are ever about to touch the same fields - a tree's nodes, a handle's position or closed flag, a buffer, an overlay's masks, the count of open handles - with one of them writing.", "quantifier": "any number of goroutines, any calls, any schedule, any nesting of views, overlays and sources", "why_tests_cant": "the race detector sees only the accesses a test happens to make close together; the listing race needs a Chmod between the release of the lock and the end of ReadDir", "anchors": ["vroot/synthfs/node.go: node (all metadata reads and writes happen under state.mu)", "vroot/synthfs/handle_dir.go: (*dirHandle).readEntries, ReadDir, Readdir, Readdirnames", "vroot/synthfs/view_bytes.go: (*bytesHandle).Read, Seek", "vroot/synthfs/view_fs.go: (*rangedHandle).Read, Seek", "vroot-adapter/overlayfs/file.go: handleTracker, mergedDir, trackedFile", "vroot-adapter/overlayfs/state.go: overlayState (Locking)", "tarfs/entfile.go: openFile"]}
{"id": "C77", "title": "aferofs/synth: several goroutines on one tree", "statement": "Whatever the interleaving: every call returns after a bounded number of its own steps; each directory holds each name once; goroutines working below directories of their own get the results and trees they would get alone; what a call made or found stays where it said while nobody removes or renames it; an exclusive creation succeeds once; Remove takes only empty directories; Rename is one step to everybody else and loses nothing.", "quantifier": "any number of goroutines, any list of calls each, any schedule of their atomic steps (one per lock section of a directory)", "why_tests_cant": "there is no lock over the tree, so each promise depends on which lookups and insertions come between which; a test run sees one of the schedules", "anchors": ["aferofs/synth/dir.go: (*dir).lookup, AddDirent, RemoveName, RemoveDirent, Len", "aferofs/synth/fs.go: (*Fs).findParent, mkdir, mkdirAll, openFile, Remove, removeFromParent, rename, Stat", "aferofs/synth/dirent.go: dirent"]}
{"id": "C78", "title": "httprange: the streaming lane under several goroutines", "statement": "Whatever the goroutines reading at any offsets and closing do, the lane makes at most one request and closes each body once; a read it serves has the object's bytes from its offset, all of them with a nil error; served reads follow one another without gap or repetition; a read elsewhere never waits; every call returns; and when all have, a lane marked dead holds no body.", "quantifier": "any number of reads and closes, any schedule of their atomic accesses, any answer of the server and any way the body hands out its bytes", "why_tests_cant": "the position moves while another read is comparing against it, and the closer runs in a goroutine of its own; a test run sees one of the schedules", "anchors": ["stream/httprange/stream.go: (*stream).kill, killLocked, killDetached", "stream/httprange/stream.go: (*ReaderAt).laneReadAt, streamReadAt, openStream"]}
{"id": "C79", "title": "synthfs: several goroutines on the handles of one in-memory file", "statement": "Whatever the interleaving of Read, ReadAt, Write, WriteAt, Seek, Truncate, Stat and Close on any handles of a file, there is an order of the calls - one that returned before another was made coming first - in which each is one step of the file, giving the results that were returned and the bytes that are left. A call made after a Close of its handle returned is refused with ErrClosed, none is refused before a Close was called, and every call can return.", "quantifier": "any number of goroutines, any list of calls each, any handles and flags, any schedule of the sections under the mutexes, any history of the file before", "why_tests_cant": "a call takes up to four sections under three mutexes, and what may come between them decides the result; a test run sees one of the schedules", "anchors": ["vroot/synthfs/handle.go: (*fileHandle).isClosed, Close, Read, ReadAt, Write, WriteAt, Truncate, Seek, Stat", "vroot/synthfs/view_mem_buf.go: (*memHandle).Read, ReadAt, Write, WriteAt, Seek, Truncate", "vroot/synthfs/view_mem_buf.go: (*memBuf).readAt, writeAt, truncate, length"]}
{"id": "C80", "title": "aferofs/synth: each call's error names what stands in the way", "statement": "Mkdir, MkdirAll, OpenFile, Stat, Chmod, Chown, Chtimes, Remove, RemoveAll, Rename, AddFile and Reallocate fail exactly when something stands in the way, and the error says what: ErrInvalid for a name that is not a path of ordinary elements, ENOENT for a missing element, ENOTDIR for a file in the middle, EACCES for a directory whose mode does not allow it, EEXIST, EISDIR, ENOTEMPTY and EROFS as they apply; and when nothing does, they succeed.", "quantifier": "every reachable tree, every name as bytes, every mode and flag", "why_tests_cant": "a test checks a handful of errors on a handful of names; which of several obstacles is reported depends on the order of checks along an arbitrary path", "anchors": ["aferofs/synth/fs.go: (*fs).find, findDir, Mkdir, MkdirAll, OpenFile, openFile, Remove, RemoveAll, Rename, Stat, Chmod", "aferofs/synth/fs_link.go: AddFile, Reallocate", "aferofs/synth/dir.go: (*dir).LookUp, IsSearchableDir, IsWritableDir"]}
{"id": "C81", "title": "synthfs: each call's error names what stands in the way", "statement": "Resolving a name, Mkdir, MkdirAll, Symlink, Link, Remove, RemoveAll, Rename, OpenFile, Chmod, OpenRoot, AddFile and AddFS fail exactly when something stands in the way, and the error says what: ErrPathEscapes for a way that leaves the root, also through a link, ENOENT for a missing element or a link to nothing, ENOTDIR for a file or a link in the middle that does not lead to a directory, ELOOP after more than forty links, EINVAL, EEXIST, ENOTEMPTY and EBUSY as they apply; and when nothing does, they succeed.", "quantifier": "every reachable tree with any links and sub-roots, every name as bytes, every mode and flag", "why_tests_cant": "which of several obstacles on a way through links is met first, and what is reported for it, depends on an unbounded set of trees and names", "anchors": ["vroot/synthfs/tree.go: normalize, (*state).resolve, (*state).resolveParent", "vroot/synthfs/mkdir.go: (*Root).MkdirAll, mkdirLocked", "vroot/synthfs/link.go: (*Root).Symlink, Link", "vroot/synthfs/remove.go: Remove, removeAllLocked", "vroot/synthfs/rename.go: Rename", "vroot/synthfs/open.go: OpenFile", "vroot/synthfs/chmod.go: (*Root).Chmod", "vroot/synthfs/add.go: (*Root).AddFile, AddFS, ensureParents"]}
{"id": "C82", "title": "Cleaning up with a temp-file policy removes its temporary files and nothing else", "statement": "Walking a tree with fs.WalkDir and a temp-file policy's WalkFunc changes nothing but what is at or below a name the policy makes; when the walk returns no error, everything of that form is gone; and it returns no error unless a RemoveAll or a ReadDir failed.", "quantifier": "every directory tree, every behaviour of RemoveAll (also partial) and of ReadDir, every directory given to TempFilePolicyDir", "why_tests_cant": "the shape of the tree and the place of the temporary files in it are unbounded, and one wrong SkipDir loses or spares a whole subtree", "anchors": ["fsutil/safe_write.go: TempFilePolicyRandom.WalkFunc, TempFilePolicyRandom.Match", "fsutil/safe_write.go: TempFilePolicyDir.WalkFunc, TempFilePolicyDir.Match"]}
{"id": "C83", "title": "overlayfs: each call's error names what stands in the way", "statement": "Remove, RemoveAll, Mkdir, MkdirAll, opening for writing, Symlink, Link, Chmod and Rename each succeed or fail exactly as the merged tree demands, and the error says why: EINVAL for the root and for a move into itself, ENOENT, EEXIST, ENOTDIR, EISDIR, ENOTEMPTY, EXDEV for a directory of which a lower layer has a part, and unsupported for a special file the top does not hold; a call that fails has changed nothing in any layer or store.", "quantifier": "every stack of layers, marks and trees, every name whose way holds no symlink in any layer, every mode and flag", "why_tests_cant": "which error comes depends on how an unbounded number of layers and marks combine at the name, above it and below it; a test has a handful of stacks", "anchors": ["vroot-adapter/overlayfs/remove.go: (*Fs).remove, removeAll, unlink", "vroot-adapter/overlayfs/mkdir.go: (*Fs).mkdir, mkdirAll, mkdirOne", "vroot-adapter/overlayfs/open.go: (*Fs).openWrite", "vroot-adapter/overlayfs/link.go: (*Fs).link, symlink", "vroot-adapter/overlayfs/rename.go: (*Fs).rename, renameDirCheck, renameTargetCheck", "vroot-adapter/overlayfs/write.go: (*Fs).copyUp, ensureParent, mutateLocked"]}
{"id": "C84", "title": "HTTP ReaderAt: what goes on the wire and what is taken back", "statement": "Every request a range reader sends, after any history of reads, probes and closes and whatever headers it was configured with, carries exactly one byte range - the one the reader meant, first <= last - exactly one Accept-Encoding, identity, an If-Range exactly when an object is pinned by a strong tag or a date (never a weak tag, never on a probe), and every other configured field unchanged. A response is taken only if its body is the object's own bytes (no coding but identity). Responses are of one origin iff scheme and host agree, and a reader is made exactly for http(s) URLs with a host.", "quantifier": "every configuration header, every history of calls, every pinned description, every response header", "why_tests_cant": "header maps, histories and pinned descriptions are unbounded; tests try single headers", "anchors": ["stream/httprange/httprange.go: (*ReaderAt).newRequest", "stream/httprange/reader_at.go: ifRangeValue", "stream/httprange/httprange.go: checkContentEncoding", "stream/httprange/httprange.go: originOf", "stream/httprange/httprange.go: validateURL", "stream/httprange/stream.go: (*ReaderAt).openStream"]}
{"id": "C85", "title": "sftpfs: errors say what stood in the way, and a directory handle serves several goroutines", "statement": "mapSftpErr keeps every sentinel an error matches and adds fs.ErrExist exactly for a failure status whose text says the file exists; over the stock server Mkdir, OpenFile and Symlink match ErrExist, ErrNotExist and ErrPermission exactly when something existed, was missing or was forbidden; a removal takes an error for a missing file exactly when it says so; Sync fails exactly when the server has the operation and it failed. A directory handle asks the server once whatever goroutines read it, and hands out the listing from the front, every entry at most once, each call getting what it asked for out of what was left.", "quantifier": "every error tree, every path and errno, every number of goroutines, calls and every schedule", "why_tests_cant": "error trees and schedules are unbounded; the text match is tried on one message", "anchors": ["vroot-adapter/sftpfs/sftpfs.go: mapSftpErr", "vroot-adapter/sftpfs/sftpfs.go: isSftpNotExist", "vroot-adapter/sftpfs/sftpfs.go: (*sftpFile).Sync", "vroot-adapter/sftpfs/sftpfs.go: (*sftpFile).loadDir", "vroot-adapter/sftpfs/sftpfs.go: (*sftpFile).Readdir", "vroot-adapter/sftpfs/sftpfs.go: (*SftpFs).Mkdir", "vroot-adapter/sftpfs/sftpfs.go: (*SftpFs).Link"]}
{"id": "C86", "title": "overlayfs: building an overlay takes only layers it can work with and disturbs nothing else", "statement": "Building a layer adds at most its two directories and its store, never to a backend that refuses writes; a store of another schema version is refused and left as it was, whatever fails; a layer built once is built again exactly as it was left, marks included, read-only where writes are refused. New takes exactly a canonical top with a writable store over non-nil readable lowers, keeps every lower and every store, empties the top's work directory and touches nothing else, and its masks are the stores' marks; a refusal names the reason and leaves every layer as it was. Close closes every store and fs once whatever fails and reports exactly what failed.", "quantifier": "every root with any links, every database, every pattern of failures of backend, SQLite and store calls, every stack of layers", "why_tests_cant": "the failure can come at any of an unbounded number of calls, and the layouts, databases and stacks a caller can bring are unbounded; tests try a fresh layer and a few wrong ones", "anchors": ["vroot-adapter/overlayfs/datasource.go: ensureCanonical", "vroot-adapter/overlayfs/datasource.go: openStore", "vroot-adapter/overlayfs/datasource.go: NewDataSourceCanonical", "vroot-adapter/overlayfs/datasource.go: (*DataSource).sweepWork, Close", "vroot-adapter/overlayfs/metadatastore_sqlite.go: initSchema, checkSchemaVersion", "vroot-adapter/overlayfs/state.go: newOverlayState", "vroot-adapter/overlayfs/fs.go: New, (*Fs).Close"]}
{"id": "C87", "title": "overlayfs: an overlay answers and shows what one plain tree would, through any history", "statement": "Every stack of layers shows a plain tree of directories, files, links and special files. Whatever sequence of Remove, RemoveAll, Mkdir, MkdirAll, OpenFile with writes, Symlink, Chmod and Rename is applied to an overlay, each answers as on that one tree and leaves the overlay showing what the tree has become, lookups and sorted listings included; only moving a directory of which a lower layer has something, and moving or chmodding a lower's special file, may be refused, and then nothing changes. Without lowers there is no exception. A call cut short shows the tree before or the tree after it; RemoveAll may have taken a part, MkdirAll made a part.", "quantifier": "every stack, every history of calls, every point a call is cut short at", "why_tests_cant": "histories and stacks are unbounded, and an interference between copy-ups, whiteouts, opaque marks and renames may need several calls to show", "anchors": ["vroot-adapter/overlayfs/merged.go", "vroot-adapter/overlayfs/write.go: copyUp, ensureParent, unmask", "vroot-adapter/overlayfs/copyup.go: CopyUp", "vroot-adapter/overlayfs/remove.go: remove, removeAll, unlink", "vroot-adapter/overlayfs/mkdir.go: mkdir, mkdirAll", "vroot-adapter/overlayfs/open.go: openWrite", "vroot-adapter/overlayfs/rename.go: rename", "vroot-adapter/overlayfs/link.go: symlink"]}
{"id": "C88", "title": "aferofs: handles that several goroutines share are closed, refused and recorded as one would expect", "statement": "Through the closable wrapper every handle of aferofs/synth has, each call enters the wrapped file exactly once and returns its answer, or is refused with ErrClosed without entering it; nothing is refused before a Close was called, everything but Name is refused once one has returned, a Close is never lost, and the file is closed at most once. Through ObservableFs every call is noted, passed on as it is, its results noted and returned; the history holds exactly these notes in the order they were made, at no point more ends than beginnings of a method.", "quantifier": "every number of goroutines, every list of calls, every schedule, every answer of the wrapped file", "why_tests_cant": "schedules are unbounded, and the windows between the sections are a few instructions wide; the race detector sees nothing since every section is locked", "anchors": ["aferofs/internal/closable/file.go: (*Closable[T]).beforeEach", "aferofs/internal/closable/file.closable[t].generate.go", "aferofs/observable.go: (*ObservableFs).recordOp", "aferofs/observable.observablefile.generate.go", "aferofs/observable.observablefs.generate.go"]}
{"id": "C89", "title": "synthfs: a root answers and shows what one plain tree would, through any history", "statement": "Whatever sequence of Mkdir, MkdirAll, Symlink, Link, Remove, RemoveAll, Rename, OpenFile, Chmod, OpenRoot, AddFile, AddFS and closes of handles is applied to a fresh root, each call returns, answers exactly what one plain tree of directories, files and links would, and leaves the root showing what that tree has become: every entry by its path, its mode, its link target, and for every file the content it shows; lookups and listings included. The tree stays one tree, and no file is lost by a rename but the one replaced.", "quantifier": "every history of calls with any names and modes, every source and callback of AddFS and AddFile", "why_tests_cant": "histories are unbounded, and a wrong parent pointer, a wrongly shared node or an entry left behind by a replaced subtree shows only several calls later", "anchors": ["vroot/synthfs/tree.go: resolve, resolveParent, normalize", "vroot/synthfs/node.go", "vroot/synthfs/mkdir.go", "vroot/synthfs/link.go", "vroot/synthfs/remove.go", "vroot/synthfs/rename.go", "vroot/synthfs/open.go", "vroot/synthfs/chmod.go", "vroot/synthfs/add.go"]}
{"id": "C90", "title": "sqlvfs: sqlite's files are plain files under plain names, whatever fails beneath", "statement": "Whatever calls sqlite makes through a sqlvfs VFS - Open, Delete, Access, reads, writes, truncations, syncs, sizes, locks and closes on any number of handles - and whichever backend calls fail, it is told exactly what plain files keyed by the resolved name would tell it: a page of the bytes last written padded with zeros and marked short exactly past the end, however often the backend wraps io.EOF, IOERR_DELETE_NOENT exactly for a missing file, existence from Access, an error exactly when something failed, a handle closed and its lock given up even then; and the backend is left with those files. Backend descriptors are one to one with open handles at all times, and unnamed files never reach the backend.", "quantifier": "every history of calls with any names, flags, offsets and bytes, every pattern of backend failures, every depth of error wrapping, every tree of directories", "why_tests_cant": "histories, names and failure patterns are unbounded; the tests run sqlite over two healthy backends", "anchors": ["vroot-adapter/overlayfs/internal/sqlvfs/sqlvfs.go: (*FS).Open, Delete, Access, cleanPath", "vroot-adapter/overlayfs/internal/sqlvfs/file.go: (*file).Close, ReadAt, WriteAt, Truncate, Sync, Size, Lock, Unlock, CheckReservedLock, LockState"]}
{"id": "C91", "title": "aferofs/synth: Copy and MapFsIter put exactly the source's regular files where they were asked for", "statement": "After Copy(src, srcRoot, dstRoot) every regular file below srcRoot stands at dstRoot plus its relative path, read-only, with the source's bytes and mode and with nothing below it; the directories above are the ones that were there or fresh ones with the umasked mode; every other path shows what it showed before, no earlier view is lost, and what was replaced is closed once. If it fails, each file is there or its place is untouched. It fails exactly when a directory cannot be listed, a listed file cannot be referred to, or one of the additions into the tree as it was would fail, with that error. MapFsIter does the same for any destinations that do not lie inside one another.", "quantifier": "every source tree, every pair of roots, every state of the tree reachable by any history, every mapping", "why_tests_cant": "source trees and destinations are unbounded; what an addition meets depends on what earlier additions made", "anchors": ["aferofs/synth/fs_link.go: (*Fs).MapFsIter, (*Fs).Copy, (*Fs).AddFile", "aferofs/synth/impl_fslink.go: newFsFileView"]}
{"id": "C92", "title": "synthfs: names, bytes and handles together are a plain tree, plain files and plain handles", "statement": "Whatever sequence of calls on names (Mkdir, MkdirAll, Symlink, Link, Remove, RemoveAll, Rename, Chmod, AddFile, OpenRoot), of OpenFile with any flags, of Stat and of reads, writes, seeks, truncations and closes on any handles is applied to a fresh root, each call returns and answers exactly what one plain tree, numbered files and handles that know a file by its number would, and leaves the root holding those bytes and positions. So a handle answers as if no name had ever changed, a call on a handle changes no name, no other handle and no other file, and what is written through one handle is read through any handle opened later under any name the file has by then.", "quantifier": "every history of calls with any names, flags, modes, offsets and bytes, any contents of added bytes views, any number of handles and of names per file", "why_tests_cant": "the interplay of open handles with renamed, replaced, linked and removed names is unbounded, and a wrongly shared view or a lost position shows only at a later read through another name", "anchors": ["vroot/synthfs/open.go: (*Root).OpenFile", "vroot/synthfs/handle.go", "vroot/synthfs/view_mem.go", "vroot/synthfs/view_mem_buf.go", "vroot/synthfs/view_bytes.go", "vroot/synthfs/inspect.go", "vroot/synthfs/link.go"]}
{"id": "C93", "title": "vroot: any stack of wrappers is one view, and ReadFile, ReadDir, WriteFile and Sub see only that view", "statement": "Whatever wrappers (Widen, Sub, PathPrefixFs, ReadOnlyFs, PathNormalizerFs, PathLocalizerFs) are put over a file system in whatever order, a call reaches the bottom exactly when it stays inside the directory the stack shows and, if any wrapper is read-only, only looks; it reaches it once, as the same call, on the path the directory and the name make; otherwise the outermost objecting wrapper answers. Handles change files only if no wrapper is read-only. Sub of a Sub is the Sub of the joined path. Widen is invisible. ReadFile and ReadDir answer what the bottom holds there, by its own method or by opening, and close what they open; WriteFile reports success exactly when opening, writing and closing succeeded.", "quantifier": "every sequence of wrappers, every prefix, every call with any names and flags, every answer of the bottom", "why_tests_cant": "wrappers nest without bound and each rewrites the names the next one judges; a wrong join, a lost read-only layer or a skipped close shows only in some order of some depth", "anchors": ["vroot/widen.go", "vroot/funcs.go: ReadDir, ReadFile, Sub, WriteFile", "vroot/pathprefix.go", "vroot/readonly.go", "vroot/pathnormalizer.go"]}
{"id": "C94", "title": "tarfs: the file system over an archive is the tree that extracting it would leave", "statement": "For any archive, the tree tarfs builds in one pass over the last entry per path has at every path what extracting the entries one after another into an empty directory leaves there: the same kind, from the same entry, and nothing where nothing is left. Opening a name reads the bytes and reports the header that following it on that disk finds, at most 40 symlinks deep, and opens nothing else; a hard link reads the bytes of the file it was linked to when extracted; Lstat reports the entry without following it; a directory lists exactly the names left in it, each once.", "quantifier": "every archive with relative names, with directories before, after or without their contents, repeated entries, spellings of the same name, symlinks anywhere and hard links to earlier files; every name and every sub-root", "why_tests_cant": "tarfs keeps the last header per path and resolves links lazily, extraction is a history; where the two differ depends on order, repetition and spelling of unboundedly many entries", "anchors": ["tarfs/fs.go: New, (*Fs).Open, (*Fs).Lstat, (*Fs).findFile, (*Fs).resolveHardlink", "tarfs/headers.go: tryCollectHeaderOffsets", "tarfs/entdir.go: (*dir).addChild, (*dir).openChild, (*openDir).ReadDir", "tarfs/enthardlink.go"]}
{"id": "C95", "title": "testhelper: setup lines make exactly the tree they describe, in whatever order they are given", "statement": "A line is read as exactly one of a directory, a file or a symlink, or refused, and a line written as documented is read back as written. Setting up a set of directories, files, symlinks and hard links onto a file system lays exactly the described tree onto it: each file with its bytes, hard links sharing the bytes of the file they name and no two files sharing any, symlinks with their targets, directories above and nothing else, and everything that was there before unchanged. The order in which the set is given does not matter. What is applied first depends only on kind, depth and name, and equal ones keep their order. One line that does not parse, or one entry with something in its way, fails the setup.", "quantifier": "every line, every set of entries and every permutation of it, every state of the file system", "why_tests_cant": "lines and sets are unbounded, and a wrong sort key shows only for some combination of kinds, depths and names; the tests of the whole repository rest on these lines meaning what they say", "anchors": ["fsutil/testhelper/setup.go: ParseSetupProcLine, compareSetupProc, pathDepth, mkdirParent, (*C).Setup, (*C).SetupLines, (*CreateDir).Setup, (*CreateFile).Setup, (*CreateSymlink).Setup, (*CreateLink).Setup"]}
{"id": "C96", "title": "stream: readers put inside one another read as the bytes put together", "statement": "Any reader built from files, SeqReaderAt streams, ByteRepeater windows, io.SectionReader windows and MultiReadAtSeekCloser concatenations, nested however deep, reads as the byte string that description denotes. Over any history of ReadAt calls, with files and streams failing at any moment, each call returns the bytes at its own offset: all that were asked for when it reports no error, io.EOF only when nothing follows, otherwise a beginning of them with the error. Reading on with Read gets the content in order and ends with io.EOF after all of it, each call making progress. Reading a concatenation of streams to the end opens each once, at its beginning, as documented. SizedReadersFromFileLike and SizedReadersFromReadAtSizer keep readers, order and sizes, and hand on the first Stat error.", "quantifier": "every composition with a total size within int64, every history of calls, lengths and offsets, every pattern of partial reads and failures beneath", "why_tests_cant": "each part keeps state between calls and may report io.EOF early or late; the compositions and interleavings of jumps are unbounded, the tests build one of three equal chunks", "anchors": ["stream/repeat.go: (*ByteRepeater).Read, (*ByteRepeater).ReadAt", "stream/seq_reader_at.go: NewSeqReaderAt, (*seqReaderAt).ReadAt, (*seqReaderAt).Size", "stream/multi_read_at_closer.go: NewMultiReadAtSeekCloser, (*multiReadAtSeekCloser).Read, (*multiReadAtSeekCloser).ReadAt, SizedReadersFromFileLike, SizedReadersFromReadAtSizer"]}
{"id": "C97", "title": "testhelper: modes, times and failures when a tree is set up", "statement": "Making a file with a mode and a time leaves it with its bytes, the permission bits asked for (or the old or usual ones) and the time asked for; if any of the calls after Create fails and Remove works, nothing half made stays. Nothing changes away from the place but directories above, which keep kind and mode. After a whole run that reports success, in whatever order its entries were listed, every file still has its bytes, mode and time, every directory its mode and time, and everything that is neither an entry nor above one is as it was, also after a failed run.", "quantifier": "every set of entries at different places, every state of the file system, every pattern of failing calls", "why_tests_cant": "each step is followed by others that touch the same directories; which of them undoes an earlier one shows only for some combination of entries, and no test sets a time on a directory with contents or makes a call fail", "anchors": ["fsutil/testhelper/setup.go: (*CreateDir).Setup, (*CreateFile).Setup, mkdirParent, compareSetupProc, (*C).Setup"]}
{"id": "C98", "title": "stream: NewMultiReadCloser reads the streams one after the other", "statement": "Over any history of Read and Close, the bytes returned so far and the bytes still in the readers together are the readers' bytes in order: none lost, doubled or moved, also when reads are short or fail. io.EOF is reported only after the last reader has ended, and then by every later Read. An error of a reader is handed on with its bytes, and that reader is read on from there at the next call; an ended reader is not read again and a reader is not touched before all earlier ones ended. Every Close closes every reader in order, however far reading had come. Reading to the end takes at most one call more than there are bytes.", "quantifier": "every list of readers, every pattern of short reads, failures and early or late io.EOF, every history of Read lengths and Close", "why_tests_cant": "whether a byte is lost at a border depends on how each reader times its io.EOF against its last bytes and on the buffer lengths; the tests read well-behaved buffers to the end once", "anchors": ["stream/multi_read_closer.go: NewMultiReadCloser, (*multiReadCloser).Read, (*multiReadCloser).Close"]}
{"id": "C99", "title": "testhelper: the test context passes calls on, records them and fails the test exactly when it should", "statement": "In a test that makes any calls through the context, each wanting success or (the E variants) an error, the file system sees exactly these calls in order, once each, and otherwise only the Close of a handle that came where an error was wanted, directly after the call. Its answers come back unchanged. Every call that ended otherwise than wanted is reported with exactly one message, which names the call and what was wrong and whose last lines are all calls so far in order; nothing else is reported. With testing.T the first report ends the test; a test without report has made all its calls with the outcomes wanted. Different calls never look alike in the history.", "quantifier": "every list of calls and variants, every file system with state, T that stops at Fatalf and T that does not", "why_tests_cant": "a helper that swallowed a failure or left a call out of the history would make other tests pass; what is reported depends on the whole run before, and the E variants' success paths run in no test that passes", "anchors": ["fsutil/testhelper/context.go: New, (*C).record, (*C).ReportFailf", "fsutil/testhelper/context_fsys.go: (*C).Chmod, (*C).ChmodE, (*C).Create, (*C).CreateE, (*C).Open, (*C).OpenE, (*C).OpenFile, (*C).OpenFileE, (*C).Stat, (*C).StatE and the other wrappers"]}
{"id": "C100", "title": "testhelper: the error helpers pass exactly on the errors they name", "statement": "ErrIs passes exactly if both errors are nil or the target, or an error whose Is method stands for it, is somewhere in the error's tree of wrapped and joined errors. NilErr is ErrIs with nil and passes exactly on nil. ErrAsType returns the first error of the type from the top and left to right, or fails because none is in the tree. ErrAsTypeAnd asks the callback exactly once, of that same value, never where there is none, and passes exactly if it accepts. Each fails at most once, also with a T whose Fatalf returns.", "quantifier": "every finite tree of wrapped and joined errors, every target, type and callback", "why_tests_cant": "the trees are unbounded in depth and width; a helper that passed too easily would hide failures in every test using it, the tests of the helpers use one-step wrappings", "anchors": ["fsutil/testhelper/err.go: NilErr, ErrIs, ErrAsType, ErrAsTypeAnd"]}
{"id": "C101", "title": "bufpool: pooled slices and buffers are fit for use and never shared", "statement": "After any history of Get, use, Put and collection in which callers use and give back only what they have, GetBytes gives a slice of exactly 64 KiB length and capacity and GetBuf an empty buffer of at most 64 KiB. What is handed out is no other caller's, neither pointer nor backing array, and nothing others have changes. Put takes back exactly slices of the right length and capacity and buffers up to the limit.", "quantifier": "every history, every choice of sync.Pool and the collector, every way a caller reslices, writes to or regrows what it has", "why_tests_cant": "sharing shows only when sync.Pool happens to hand the same entry out, which depends on scheduling and the collector; the tests put and get one entry at a time", "anchors": ["fsutil/internal/bufpool/pool.go: GetBytes, PutBytes, GetBuf, PutBuf", "aferofs/internal/bufpool/bytes.go: GetBytes, PutBytes", "aferofs/internal/bufpool/buffer.go: GetBuf, PutBuf"]}
