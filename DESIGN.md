# Design

Subject: `ngicks/go-fsys-helper` (read at `/repo`, never built or run). Model and
proofs: Coq 8.16.1, `rocq/theories`, logical root `Verif`, standard library only
(no std++, no mathcomp), so no foreign axioms can enter.

## Layout

Each area `X` is split so that a broken proof never breaks the model:

| file              | holds                                                              |
|-------------------|--------------------------------------------------------------------|
| `X_Model.v`       | the Go code, function by function, each definition citing its lines |
| `X_Spec.v`        | the independent specification the properties are stated against     |
| `X_Proofs.v` (and `X…_Proofs.v`) | lemmas                                               |
| `X_Props.v`       | only the property theorems, `Print Assumptions` beneath, and a satisfying `Example` beside each |

`Common.v` has byte/list helpers and the Go-level vocabulary shared by areas
(bytes as `N`, int64 as `Z` with an explicit wrap where overflow matters, slices
as lists, error results as values). `PathLex_*` is the lexical part of
`path/filepath` on Unix (Clean, IsLocal, Join, Split), used by every area that
takes names.

Conventions:

* a Go call on an external thing (a reader, an HTTP server, the OS, a random
  source, an SQL store) is a function/oracle argument of the model; assumptions on
  it are hypotheses of the theorem, written as a separate predicate in `X_Spec.v`;
* loops that Go does not bound are fuelled; running out of fuel is a separate
  result (`OutOfFuel`, `NFuel`, ...), never a normal value, and theorems exclude it
  explicitly or prove it does not occur;
* crash points: file-system programs are lists/trees of primitive steps; a crash
  keeps the state after some prefix of the steps ("crash" = the process stops and
  all completed primitive steps are visible). Loss of power, where unsynced data
  may be gone, is modelled separately where a claim speaks of it (C20, C62);
* concurrency: a step machine with one transition per atomic section of the Go
  code (mutex-held region, one atomic CAS/Load) and a schedule as a list of
  thread ids;
* a property that the code violates is proved as `..._refuted` with a witness
  computed by the model, next to the strongest positive theorem that does hold;
* a property proved only in part has `_partial` in the theorem name and the
  missing part is named here and in `MANIFEST.json`.

## Per property: what is modelled, how it is proved

`stream`

* C01, C02, C03, C54 - `MultiRead`. `search`/`binarySearch` (including
  `slices.BinarySearchFunc`), `Read`, `Seek`, `readAt`, `ReadAt` over readers given
  as functions of (call number, length, offset). Spec: the concatenated byte list
  and a cursor. Refinement, by induction over the call list. C03: general theorem
  for non-last segments, refutation for a truncated last segment. C54: the index in
  `MultiReadError`; right for ReadAt, refuted for Read.
* C04 - `SeqRead`. Source streams as an oracle deciding how many bytes each `Read`
  delivers; invariant "live stream is positioned at `off`".
* C05, C06 - `Cancel`/`Gather`. Trace model of calls into the source / member closers.
* C07 - `ContentRange`: parser over byte lists; spec: grammar as printing function
  plus inversion ("accepted iff").
* C08-C11 - `HttpRange`: response as record of status/headers/body, the server an
  arbitrary oracle; metadata pinning as CAS on an option cell with a
  schedule-quantified invariant (C09); lane as state machine; view arithmetic with
  int64 wrap.
* C12 - `Redact`: URL parsing is an oracle (net/url is not modelled);
  non-interference over which fields of the parsed URL / raw string reach the message.
* C13, C14, C15 - `Chunk`: arithmetic over `Z`; the source is the composition of the
  MultiRead and SeqRead models; the sink is a state machine over stored chunks with
  failing and partial PUTs, invariant over session histories.
* C57, C58 - `FileClient` (fileserver's HTTPClient): net/http's Doer is an oracle; the
  store is keyed by the URL path as sent; escaping is proved injective; refutations for
  base URLs with query or fragment and for `..`.

`fsutil`

* C16-C19 - `Resumable`: file system restricted to the part file, sidecar and final
  name; Pull/Push as a step program against a remote whose version may change between
  (not during) calls; every crash prefix and failing step. ETags are assumed without
  surrounding white space, since the sidecar is read back trimmed.
* C20, C21 - `SafeWrite`: step program over a small directory map with oracle
  errors; all crash prefixes; a second semantics for power loss.
* C22, C23 - `TempName`, `OpenRandom`.
* C24 - `ResolvePath` (`Resolve`): abstract lstat/readlink; fuel = remaining hop budget;
  the comparison is with an inductive kernel walk (`kw`), in both directions
  (`Resolve_Complete`); `kernel_fs` is a file system that walks a given tree.
* C25 - `Utf8`; C26 - `HeadTail`; C27 - `ChmodMask`; C28 - `CopyFs`.

`tarfs`

* C29, C30 - `TarFs`: entries to tree, lookups with symlinks/hard links; panics and
  endless recursion are explicit results.
* C31 - `Sparse`; C32 - `TarNum` (numeric fields and sparse-map encodings).
* C33 - `Paging`: the four directory handle implementations, with listings that change.

`vroot`

* C34 - `Walk` (Lstat, Stat, ReadDir, ResolveSymlink and inode oracles); C35 - `PathPrefix`;
  C36 - `ReadOnly`.
* C37, C38 - `MemBuf`: buffer with explicit capacity and stale backing array bytes.
* C39-C43, C55 - `Synth`: heap of nodes (ids), directories with ordered entries and
  parent; views as counted closers; histories of calls over roots and sub-roots; the
  lock that Close takes (C55).
* C59 - `RoViews`: nested ranged views; io.SectionReader and bytes.Reader as documented.
* C60, C61 - `SqlVfs`: lock levels over a whole-file lock, one step per call, any
  interleaving; flock conversion releases first (flock(2)); the version is a ghost that
  records which writer a handle has seen. Names: sqlite's URI decoding as documented.
* C63, C64 - `IoBridge`: both directions of the io/fs bridges; `fs.ValidPath` as encoded
  Unicode scalars and ordinary elements; SortFunc as any sorting function. Unix
  separators.

`vroot-adapter`

* C44-C50 - `Overlay`: layers as path-indexed partial maps, marks as predicates; merged
  view as spec; each mutating operation as a list of persistent steps. What a backend
  makes of a path through a symlink (`through`) and which calls fail (`broken`) are
  oracles; hard links are copies; Mkdir with its attributes is one step.
* C51 - `Masks`: in-memory set operations vs SQL range predicates on byte strings;
  SQLite TEXT comparison bytewise, transactions atomic, a flag for whether a failed
  transaction landed.
* C52 - `Handles`; the name a handle's file has now (`h_now`) is a ghost.
* C53, C56 - `Sftp`: server tree with symlinks, answers Serve / Refuse / Late; pkg/sftp
  passes ordinary names; no other client.
* C62 - `CopyUp`: copy-up call by call with an answers list (process death included),
  restart clean-up; a ghost marks files not synced; resolved names without symlink
  components.
* C65, C66 - `OverlayRoot`: name resolution of every entry point over the merged view as
  an oracle that only the call itself changes; `shows_top` says the oracle shows what the
  top holds; where the top's own file system takes a name is a link-following walk as
  os.Root makes it.
* C67 - `TarSections`: Sections over whole archives: the place of each entry, the search for
  its sparse map among the raw headers, and its content. Entries are given as written; what
  archive/tar's Next answers is read off them. Refuted for contiguous files with content.
* C68 - `Transfer`: Push over ChunkedSink over HTTPClient over the plain store of C57 behind
  a network that drops, loses, truncates or answers by itself, and ChunkedSource back.
  Refuted for empty files and files that shrink while they are sent.
* C69 - `OsFs`: osfs.Fs as the table of calls it makes of package os, its names against a
  left-to-right reading, and its paths against a walk of the kernel over any tree. Refuted:
  Remove of the root, trailing slashes, '..' after a symlink or a missing name.
* C70 - `Afero`: aferofs/synth as a tree of directories and files that hold views by number,
  with a log of the views closed. `shows s p` is the entry at a path; each call is stated as
  the exact change of `shows`, with conditions for success; `account` (views in the tree and
  views closed) must only gain the view a call brings. Proofs: `Afero_Proofs` (tree),
  `AferoOps_Proofs` (invariant, RemoveAll), `AferoCalls`, `AferoMore`, `AferoMove`,
  `AferoViews`, `AferoFinal`.
* C71, C72 - `AferoFile`: the files under aferofs/synth. Content as a slice with its capacity (types
  and abstract file of `MemBuf`, own functions, proved equal to it and so to the abstract file);
  ranged views over io.SectionReader; the temporary-file view over a directory of named files with
  an oracle for fresh names; directory handles against a pager that takes a listing, hands it out
  and drops it; the closable wrapper one call at a time and with check, store and call as separate
  steps of goroutines; metadata copied from the view once.
* C73 - `Errors`: errors are addresses in a heap of nodes (leaf, PathError, LinkError, prefixed,
  gathered), so that sharing and overwriting in place can be said. errors.Is, errors.Unwrap and
  errors.AsType are modelled with fuel and proved against the relation "reaches through causes";
  a leaf's own Is method is an argument.
* C74 - `AferoIo`: toFsPath over `PathLex`, the fs.FS adapter as a function from calls to what is asked
  of the fs.FS, files by the set of methods they have, and the recorder with byte slices as references
  to buffers that callers and the wrapped methods may change.
* C75, C76 - `Locks`: each method as the list of locks it takes and releases and the guarded fields it
  touches in between, calls nested in calls (views, callbacks, sources, layers); the specification is a
  small machine of goroutines, sync.Mutex and sync.RWMutex with waiting writers. Deadlock freedom by a
  rank per lock that follows the height of a file system in its stack; race freedom by mutual exclusion.
  Circular stacks and unguarded fields are refuted by explicit schedules.
* C77 - `AferoRace`: a call on aferofs/synth is a tree of atomic steps (one per lock section of a
  directory); a schedule interleaves the steps of any number of goroutines over one heap of objects.
  `AferoRaceOwn_Proofs` is a rely/guarantee argument (others never add the names a goroutine makes),
  `AferoRaceApart_Proofs` a two-run simulation (a goroutine alone / among others agree on its objects),
  `AferoRaceWrong_Proofs` the schedules that break the rest.
* C78 - `HttpLane`: the lane's atomics, mutex and detached closer as a machine of goroutines, one
  step per access; the server's answer and the body's pieces come with the schedule. One invariant
  (who holds mu, what the state implies about counts and position, the bytes in flight of the
  holder, the log of served reads); a measure bounds the useful steps.
* C79 - `MemRace`: handles of one in-memory file as a machine with one step per section under a
  mutex, over MemBuf's functions; calls and returns are logged. Spec: an order of the log in which
  each call is a step of MemBuf's abstract file. Three invariants: the linearization so far with the
  positions in flight, the closed flags against the log, who holds which handle's mutex.
* C80 - `AferoErr`: over `Afero_Model`; Spec says for each call which obstacle gives which error
  (a relation on the way along a path, not the model's loop), Proofs show the call fails with that
  error exactly then, and succeeds otherwise.
* C81 - `SynthErr`: over `Synth_Model`; Spec gives the way a name takes through directories and
  links as an inductive relation that ends at a node or at an obstacle, and for each call the
  obstacles it answers for; Proofs show each call fails with that error exactly then.
* C82 - `Cleanup`: `Cleanup_Model` has io/fs.WalkDir over an in-memory tree, with RemoveAll and
  ReadDir as oracles; the WalkFuncs are TempName_Model's. Spec compares what is at every path of
  names before and after; one induction over the tree serves both policies, by three conditions on
  what a WalkFunc answers at the paths the walk comes to.
* C83 - `OverlayErr`: over `Overlay_Model`; Spec says for each call, from the merged tree of
  `Overlay_Spec` alone, when it succeeds and which error it is owed otherwise; Proofs show that the
  call answers so, that it did nothing when it fails, and that no call is owed two answers.

### C84 - requests on the wire (httprange)
`HttpWire_Model`: http.Header as a list of (spelling, values) with Go's canonical spelling, Del/Set/Add/Get; newRequest, the Range values, If-Range; checkContentEncoding, originOf, validateURL (url.Parse an oracle giving scheme and host). `HttpWire_Spec`: lines of a message by name without regard to case, `asks` (the grammar of a byte range), `found`, `condition`, `coded`. The request record of `HttpRange_Model` is what `wire` renders, so the theorem says the server of C08-C11 indeed receives what that model hands it. Two findings: other spellings of Range survive; only the first Content-Encoding line is looked at.

### C85 - sftpfs errors and directory handles
`SftpErr_Model`: error trees with status errors, mapSftpErr, isSftpNotExist, Sync; the stock server's answer to an errno; the two locked halves of Readdir stepped by any schedule. `SftpErr_Spec`: matching and first status as inductive relations, `says_exists`, `right_answer` out of what nobody has had yet. Two findings (the path is part of the text matched; Link is not mapped).

### C86 - building an overlay

`Stack_Model`: a layer's root directory with links, ensureCanonical, the SQLite schema as tables and a transaction of five statements, openStore with its second attempt, New, sweepWork, Close; every call of the backend, of SQLite and of a store takes one fault from a list. `Stack_Spec`: where a name leads (inductive), `grown`, `finished`, `brought_up`, `thinned`, `marks_of`, `closed_once`. Following links is proved exact by a pigeonhole argument over the names of the root. Two findings: a database without any version is adopted; emptying "work" goes through a link.

### C87 - an overlay as one plain tree

`OverlayPlain_Spec`, over `Overlay_Model`: a computable plain tree (`pat`, `put`, `drop`, `move`), what each call answers on it (`answer`) and makes of it (`effect`), written without layers; `shows`, `right`, `track`, `between`. `OverlayPlain_Proofs` maps the per-call results of C44-C50 and C83 onto it and folds them over histories. Left out: modes of directories, bits beyond permissions, hard links.

### C88 - shared handles of aferofs

`Wrap_Model`: the closable wrapper and the recording wrappers as interleavings of their locked sections; the wrapped file's answers come with the schedule. `Wrap_Spec`: what the events of one goroutine may be (`told`, `recorded`), which closes reached the wrapped file, what the history counts. Three findings: two closes, use after close, a history that does not pair.

### C89 - a synthfs root as one plain tree

`SynthPlain_Spec.plain` gives for each call of `Synth_Model` the answer and the new tree of a list of entries keyed by full paths; it has its own reading of names, walking of links, merging of sources, and knows no nodes, parent pointers, reference counts or views. `good h t` (invariant, no cycle, root a directory, `shows`) is carried through each call; a change of one cell of the heap is one `put` or `drop` (`good_enter`, `good_clear`), a rename one `move`.

### C90 - sqlite's files through sqlvfs

`SqlFile_Model` is the adapter over a backend with names, inodes and descriptors where each backend call takes a failure from its caller and wraps its errors as often as the environment says; `SqlFile_Spec.pstep` is the same history over plain files (contents as a length and a function, names resolved by their meaning, no descriptors), and `told` is the bridge's reading of a Go answer. `rel` relates handles to descriptors and inodes; `tidy` (descriptors one to one with handles) is what makes a close leave the other handles alone.

### C91 - filling aferofs/synth from a source

`AferoCopy_Model`: NewFsFileView, MapFsIter, Copy and io/fs.WalkDir over `Afero_Model.add_file`. `AferoCopy_Spec.grafted` says what the tree shows afterwards from paths alone. Proofs turn both calls into a list of jobs, show by induction that jobs with targets apart graft (`work_grafts`) and that an addition neither adds nor removes a fault of another (`fault_kept`).

### C92 - synthfs with bytes and handles

`SynthData_Model` puts the tree of `Synth_Model`, the memory buffers of `MemBuf_Model` and the bytes views of `RoViews_Model` behind OpenFile and `fileHandle`'s own checks. `SynthData_Spec.world` is the tree of C89, a list of files (length, byte function, whether fixed) and a list of handles (file number, flags, position, open); a method of a handle is `MemBuf_Spec`'s abstract file with that one handle. `dgood` carries the relation and that no handle which may write is on a fixed file; `dstep_sim` is one case per call.

### C93 - stacks of vroot wrappers

Model `Nest_Model.v`: a stack is a tree of constructors (Base, Widened, Prefixed, Frozen, Normalized, Localized); `down`
sends a call through `pp_call`, `ro_root` and `normalizer_call` of the earlier models; `sub`, `widen`, `read_file`,
`list_dir` and `write_file` follow funcs.go and widen.go, with the calls the bottom sees logged. Spec: one directory
(rooted or not, elements), one read-only bit, and names judged as given (`lets`, `lands`, `objects`). Theorems: a stack
built by the constructors passes exactly what its one view lets through and refuses with the outermost objection; Sub of
Sub is Sub of the joined path; Widen is invisible; the helpers answer what stands at the path and close what they open.

### C94 - tarfs against extraction

C29 and C30 say what the tree built by tarfs shows in terms of the last entry per path. This
claim ties that to what users of an archive mean by it: `TarExtract_Spec.v` extracts the
entries one after another onto an empty disk (a function from element lists to nodes), making
missing directories above, replacing what has the name, and sharing the bytes a hard link's
target has at that time. It uses none of the model's functions except the header type. `tame`
bounds the archives: those that extract without an error and none of the shapes refuted in
C29/C30. The proof is an induction over the archive from the right: after each entry the disk
shows the last entry at each path, directories made above something, and nothing elsewhere
(`shows`); `tar_lookup` says the same of the tree, so both agree at each path; walks and
listings follow. The order matters only for hard links, and there the two differ when the
target comes again: refuted, as are names with a leading slash.

### C95 - setup lines of testhelper

The repository's tests describe their trees in lines; a line that means something else, or an
order that makes an entry fail, undermines every test above. `SetupLines_Model.v` has the
parser (strings.Cut, HasSuffix, the three syntaxes in the order they are tried; Unquote an
oracle), the comparison (kind, depth, name), the stable sort and what each kind does to a
plain tree with numbered files. `SetupLines_Spec.v` says what a line means as a relation on
byte strings (first place where a separator begins), when a set is `coherent`, and what disk
is `laid` by it. Proof: one entry changes only the directories it needs and its own place
(`chg`), so any order in which files come before their hard links lays the set; the sort is
such an order; two laid disks hold the same tree, with files renumbered (`same_tree`).
Refuted: arrows and slashes in contents, hard links to hard links.

### C96 - readers put inside one another

The package exists to be composed (chunks behind SeqReaderAt behind a concatenation), and C01,
C02 and C04 each treat the parts as stateless or alone. `StreamTree_Model.v` has a type of
reader trees in which each part keeps its state between calls, ReadAt of a tree by recursion
(bounded by its depth), Read on the outermost concatenation, the additions in int64, and the
two constructors of sized readers. `StreamTree_Spec.v` says what bytes a tree denotes as it is
built (`built`) and what one ReadAt may answer (`reads`), with or without failures beneath.
Proof: one contract (`sound`) kept by each kind of reader, by induction on depth; the search
lemmas of C01 are reused on the table of sizes. For the number of opens each stream's position
is tied to the cursor (`status`). Refuted: sums beyond int64, negative offsets of a bare
ByteRepeater.

### C97 - modes, times and failures in testhelper.Setup

C95 leaves modes and times out. `SetupMeta_Model.v` has a file system with kind, mode and
time per path, a clock that moves with every call and directories whose time moves when a
name is made or removed in them. Each call after Create may fail by an oracle. The spec says
what is asked of an entry (`as_asked`) and what may change away from it (`only_at`).

### C98 - streams read one after the other

C06 has only the Close of NewMultiReadCloser. `MultiStream_Model.v` has the loop of
io.MultiReader over readers whose next calls follow any plan of short reads, failures and
early or late io.EOF, and histories of Read and Close. The spec is the bytes of all readers
put together (`content`) and which readers a call may touch (`left_of`). Proof: one lemma per
Read, then induction over the history.

### C99 - the test context of testhelper

`TestCtx_Model.v` has the history, ReportFailf, and the 34 wrappers as one function of the
call and the variant, with the text of each of the 17 calls. The file system is an oracle of
all it has seen. The spec lists the calls made with their answers (`made`), what the file
system should see of each (`block`), and which messages are due (`all_reported`), the history
being read back from the lines of the message.

### C100 - the error helpers of testhelper

`TestErr_Model.v` has errors as finite trees with identity, type and Is method, the walks of
errors.Is and errors.As, and the four helpers with the number of Fatalf calls. The spec says
where an error is in another (`inside`, by a path) and which is the first of a type
(`first_of`, by the order of paths). Proof by induction over the tree.

### C101 - pooled slices and buffers

`BufPool_Model.v` has both pools as one function of the kind, pointers with backing array,
length and capacity, and histories of Get, use, Put and collection; a history in which a
caller uses what it does not have is cut off. The spec says what is fit (`fit`) and what is
unshared (`apart`). Proof: one invariant over all pointers handed out or free.

Not modelled at all: the code generator of `aferofs`, `osfs.Root` beyond its error translation
(its guarantees come from the kernel through `os.Root`), real HTTP, real SFTP, fsync and
durability ordering beyond the loss of power of C20 and C62, Windows and Plan 9 path
rules (except the chmod masks of C27), the memory model below mutex/atomic granularity,
performance.

## Trusted base

* the Coq kernel (`coqchk` is run by the gate) and the standard library. No theorem uses
  an axiom; the entries `Coq.ssr.ssrunder.*` that coqchk lists belong to a standard
  library file that other library files load, and no proof here uses them;
* the reading of the Go source: each definition cites file and lines; every known
  simplification is listed in the comment of the definition and, if it limits a
  claim, in the claim's note in `MANIFEST.json`;
* the behaviour assumed of Go's standard library and the OS, as stated by each
  theorem's hypotheses and in the list above;
* ghosts (the flock version of C60, `h_now` of C52, the unsynced mark of C62) record
  history for the statements and are read by no modelled decision.

## Testing the theorems

`seeded/LOG.jsonl` has one line per wrong program tried: one definition of a model is
edited in a scratch copy, everything is rebuilt, and the theorems that no longer check are
listed. An edit nothing noticed led to a tightened theorem (named in the line) or is marked
as equivalent, with the reason.

## Assumptions per theorem

`Print Assumptions` of each theorem, collected by one run over all `*_Props.v`.

| theorem | file | assumptions |
|---|---|---|
| `C01_read_at_is_slice_of_concatenation` | `MultiRead_Props.v` | Closed under the global context |
| `C02_history_refines_cursor` | `MultiRead_Props.v` | Closed under the global context |
| `C03_short_inner_segment_never_eof_partial` | `MultiRead_Props.v` | Closed under the global context |
| `C03_eof_means_all_but_last_complete_partial` | `MultiRead_Props.v` | Closed under the global context |
| `C03_truncated_last_segment_refuted` | `MultiRead_Props.v` | Closed under the global context |
| `C04_any_history_returns_own_slice` | `SeqRead_Props.v` | Closed under the global context |
| `C04_fault_free_history_is_random_access` | `SeqRead_Props.v` | Closed under the global context |
| `C04_contiguous_reads_open_once` | `SeqRead_Props.v` | Closed under the global context |
| `C05_cancellable_history` | `StreamMisc_Props.v` | Closed under the global context |
| `C06_close_calls_every_member_and_reports_every_error` | `StreamMisc_Props.v` | Closed under the global context |
| `C06_gather_nil_iff_all_nil_and_keeps_errors` | `StreamMisc_Props.v` | Closed under the global context |
| `C07_accepts_exactly_the_grammar` | `ContentRange_Props.v` | Closed under the global context |
| `C07_parse_inverts_print` | `ContentRange_Props.v` | Closed under the global context |
| `C08_bytes_are_the_ranges_asked_for_or_an_error` | `HttpRange_Props.v` | Closed under the global context |
| `C08_whole_answer_is_refused` | `HttpRange_Props.v` | Closed under the global context |
| `C08_prior_knowledge` | `HttpRange_Props.v` | Closed under the global context |
| `C09_pinned_identity_never_changes` | `HttpPin_Props.v` | Closed under the global context |
| `C09_verdicts_are_right` | `HttpPin_Props.v` | Closed under the global context |
| `C09_accepted_responses_agree` | `HttpPin_Props.v` | Closed under the global context |
| `C09_verification_is_bounded` | `HttpPin_Props.v` | Closed under the global context |
| `C09_probing` | `HttpPin_Props.v` | Closed under the global context |
| `C10_at_most_one_stream_request` | `HttpRange_Props.v` | Closed under the global context |
| `C10_in_order_reading_is_one_request` | `HttpRange_Props.v` | Closed under the global context |
| `C11_section_reads_as_the_object` | `HttpRange_Props.v` | Closed under the global context |
| `C11_section_bounds` | `HttpRange_Props.v` | Closed under the global context |
| `C11_whole_object` | `HttpRange_Props.v` | Closed under the global context |
| `C12_request_errors_do_not_disclose` | `Redact_Props.v` | Closed under the global context |
| `C12_own_messages_do_not_disclose` | `Redact_Props.v` | Closed under the global context |
| `C12_what_is_shown` | `Redact_Props.v` | Closed under the global context |
| `C12_cause_survives_redaction` | `Redact_Props.v` | Closed under the global context |
| `C12_nested_url_error_refuted` | `Redact_Props.v` | Closed under the global context |
| `C12_fileserver_unparsable_url_refuted` | `Redact_Props.v` | Closed under the global context |
| `C13_count_is_least_cover` | `Chunk_Props.v` | Closed under the global context |
| `C13_sizes_full_except_last` | `Chunk_Props.v` | Closed under the global context |
| `C13_sizes_sum_to_total` | `Chunk_Props.v` | Closed under the global context |
| `C13_expected_size_is_slice_length` | `Chunk_Props.v` | Closed under the global context |
| `C13_near_max_int64_refuted` | `Chunk_Props.v` | Closed under the global context |
| `C14_open_streams_tail` | `Chunk_Props.v` | Closed under the global context |
| `C14_open_bounds` | `Chunk_Props.v` | Closed under the global context |
| `C14_drain_is_tail_with_one_get_per_chunk` | `Chunk_Props.v` | Closed under the global context |
| `C15_state_counts_only_stored_bytes` | `Chunk_Props.v` | Closed under the global context |
| `C15_undisturbed_session_completes` | `Chunk_Props.v` | Closed under the global context |
| `C15_progress_never_lost` | `Chunk_Props.v` | Closed under the global context |
| `C15_other_objects_untouched` | `Chunk_Props.v` | Closed under the global context |
| `C15_source_ending_early_reported_refuted` | `Chunk_Props.v` | Closed under the global context |
| `C15_surplus_reported_refuted` | `Chunk_Props.v` | Closed under the global context |
| `C16_history_single_version` | `Resume_Props.v` | Closed under the global context |
| `C16_pull_outcome` | `Resume_Props.v` | Closed under the global context |
| `C16_resume_keeps_progress` | `Resume_Props.v` | Closed under the global context |
| `C16_undisturbed_pull_commits` | `Resume_Props.v` | Closed under the global context |
| `C17_no_validators_mixes_refuted` | `Resume_Props.v` | Closed under the global context |
| `C17_unlabelled_part_trusted_refuted` | `Resume_Props.v` | Closed under the global context |
| `C17_unchanging_source_partial` | `Resume_Props.v` | Closed under the global context |
| `C18_final_untouched` | `Resume_Props.v` | Closed under the global context |
| `C18_existing_size_checked` | `Resume_Props.v` | Closed under the global context |
| `C18_crash_absent_or_complete` | `Resume_Props.v` | Closed under the global context |
| `C19_history_partial` | `Resume_Props.v` | Closed under the global context |
| `C19_push_outcome_partial` | `Resume_Props.v` | Closed under the global context |
| `C19_committed_untouched` | `Resume_Props.v` | Closed under the global context |
| `C19_undisturbed_push_partial` | `Resume_Props.v` | Closed under the global context |
| `C19_empty_push_fails_refuted` | `Resume_Props.v` | Closed under the global context |
| `C19_empty_push_publishes_stale_refuted` | `Resume_Props.v` | Closed under the global context |
| `C19_torn_sidecar_mixes_refuted` | `Resume_Props.v` | Closed under the global context |
| `C20_steps_touch_only_temp_until_publish` | `SafeWrite_Props.v` | Closed under the global context |
| `C20_random_policy_crash_states` | `SafeWrite_Props.v` | Closed under the global context |
| `C20_dir_policy_crash_states` | `SafeWrite_Props.v` | Closed under the global context |
| `C20_copyfs_as_write` | `SafeWrite_Props.v` | Closed under the global context |
| `C20_copy_produces_source` | `SafeWrite_Props.v` | Closed under the global context |
| `C20_copy_complete` | `SafeWrite_Props.v` | Closed under the global context |
| `C20_power_loss_with_sync` | `SafeWrite_Props.v` | Closed under the global context |
| `C20_power_loss_without_sync_refuted` | `SafeWrite_Props.v` | Closed under the global context |
| `C20_temp_can_be_target_refuted` | `SafeWrite_Props.v` | Closed under the global context |
| `C21_error_restores` | `SafeWrite_Props.v` | Closed under the global context |
| `C21_error_restores_any_name` | `SafeWrite_Props.v` | Closed under the global context |
| `C21_panic_leaves_temp_refuted` | `SafeWrite_Props.v` | Closed under the global context |
| `C21_copyfs_open_failure_leaves_dir_refuted` | `SafeWrite_Props.v` | Closed under the global context |
| `C22_random_policy_recognises_its_files` | `TempName_Props.v` | Closed under the global context |
| `C22_random_policy_refuses_root` | `TempName_Props.v` | Closed under the global context |
| `C22_random_match_exact` | `TempName_Props.v` | Closed under the global context |
| `C22_dir_policy_recognises_its_files_partial` | `TempName_Props.v` | Closed under the global context |
| `C22_dir_policy_pattern` | `TempName_Props.v` | Closed under the global context |
| `C22_dir_policy_blind_in_dot_refuted` | `TempName_Props.v` | Closed under the global context |
| `C22_dir_match_exact` | `TempName_Props.v` | Closed under the global context |
| `C22_dir_cleanup_removes_only_own` | `TempName_Props.v` | Closed under the global context |
| `C22_dir_cleanup_removes_own` | `TempName_Props.v` | Closed under the global context |
| `C22_dir_cleanup_enters_ancestors` | `TempName_Props.v` | Closed under the global context |
| `C22_dir_cleanup_absolute_refuted` | `TempName_Props.v` | Closed under the global context |
| `C23_terminates_within_bound` | `TempName_Props.v` | Closed under the global context |
| `C23_names_match_pattern` | `TempName_Props.v` | Closed under the global context |
| `C23_open_file_random_only_creates` | `TempName_Props.v` | Closed under the global context |
| `C23_open_file_random_alone` | `TempName_Props.v` | Closed under the global context |
| `C23_mkdir_random_keeps_existing` | `TempName_Props.v` | Closed under the global context |
| `C23_mkdir_random_failure_leaves_dir_refuted` | `TempName_Props.v` | Closed under the global context |
| `C23_random_part_injective` | `TempName_Props.v` | Closed under the global context |
| `C24_ends_local_and_link_free` | `Resolve_Props.v` | Closed under the global context |
| `C24_outside_refused` | `Resolve_Props.v` | Closed under the global context |
| `C24_agrees_with_kernel_walk_partial` | `Resolve_Props.v` | Closed under the global context |
| `C24_linked_parent_refuted` | `Resolve_Props.v` | Closed under the global context |
| `C24_finds_every_reachable_name_partial` | `Resolve_Props.v` | Closed under the global context |
| `C24_long_walks_refused_partial` | `Resolve_Props.v` | Closed under the global context |
| `C24_what_a_failure_says` | `Resolve_Props.v` | Closed under the global context |
| `C24_every_tree_answers` | `Resolve_Props.v` | Closed under the global context |
| `C24_misses_behind_linked_parent_refuted` | `Resolve_Props.v` | Closed under the global context |
| `C24_forty_links_refuted` | `Resolve_Props.v` | Closed under the global context |
| `C25_longest_rune_aligned_prefix` | `Utf8_Props.v` | Closed under the global context |
| `C25_valid_text_keeps_whole_characters` | `Utf8_Props.v` | Closed under the global context |
| `C25_doc_valid_prefix_refuted` | `Utf8_Props.v` | Closed under the global context |
| `C26_head_yields_every_prefix` | `HeadTail_Props.v` | Closed under the global context |
| `C26_tail_yields_reverse_partial` | `HeadTail_Props.v` | Closed under the global context |
| `C26_heads_distinct` | `HeadTail_Props.v` | Closed under the global context |
| `C26_vroot_head_relative` | `HeadTail_Props.v` | Closed under the global context |
| `C26_tail_of_root_twice_refuted` | `HeadTail_Props.v` | Closed under the global context |
| `C27_unix_keeps_stored_bits` | `ChmodMask_Props.v` | Closed under the global context |
| `C27_plan9_keeps_stored_bits` | `ChmodMask_Props.v` | Closed under the global context |
| `C27_windows_permissions_as_reported` | `ChmodMask_Props.v` | Closed under the global context |
| `C27_masks_idempotent` | `ChmodMask_Props.v` | Closed under the global context |
| `C28_copy_all_frame` | `CopyFs_Props.v` | Closed under the global context |
| `C28_copy_all_reproduces_tree_partial` | `CopyFs_Props.v` | Closed under the global context |
| `C28_paths_stay_inside` | `CopyFs_Props.v` | Closed under the global context |
| `C28_copy_path_frame` | `CopyFs_Props.v` | Closed under the global context |
| `C28_copy_path_copies_listed_partial` | `CopyFs_Props.v` | Closed under the global context |
| `C28_copy_path_nested_root_refuted` | `CopyFs_Props.v` | Closed under the global context |
| `C28_directory_over_file_refuted` | `CopyFs_Props.v` | Closed under the global context |
| `C28_dotdot_root_refuted` | `CopyFs_Props.v` | Closed under the global context |
| `C29_path_shows_last_entry_partial` | `TarFs_Props.v` | Closed under the global context |
| `C29_directory_lists_each_name_once_partial` | `TarFs_Props.v` | Closed under the global context |
| `C29_root` | `TarFs_Props.v` | Closed under the global context |
| `C29_missing_directory_entry_panics_refuted` | `TarFs_Props.v` | Closed under the global context |
| `C29_name_with_two_dots_is_dropped_refuted` | `TarFs_Props.v` | Closed under the global context |
| `C29_listing_disagrees_with_lookup_refuted` | `TarFs_Props.v` | Closed under the global context |
| `C30_open_follows_walk_partial` | `TarFs_Props.v` | Closed under the global context |
| `C30_open_ends_without_panic_partial` | `TarFs_Props.v` | Closed under the global context |
| `C30_lstat_keeps_last_link_partial` | `TarFs_Props.v` | Closed under the global context |
| `C30_rooted_walk_stays_inside_partial` | `TarFs_Props.v` | Closed under the global context |
| `C30_invalid_names` | `TarFs_Props.v` | Closed under the global context |
| `C30_hard_link_chain_panics_refuted` | `TarFs_Props.v` | Closed under the global context |
| `C30_hard_link_below_itself_never_ends_refuted` | `TarFs_Props.v` | Closed under the global context |
| `C30_link_to_parent_panics_refuted` | `TarFs_Props.v` | Closed under the global context |
| `C30_link_to_dot_drops_rest_refuted` | `TarFs_Props.v` | Closed under the global context |
| `C31_reads_the_described_file` | `TarSparse_Props.v` | Closed under the global context |
| `C31_described_file_is_unique` | `TarSparse_Props.v` | Closed under the global context |
| `C31_body_end` | `TarSparse_Props.v` | Closed under the global context |
| `C32_base256_is_twos_complement` | `TarNum_Props.v` | Closed under the global context |
| `C32_base256_roundtrip` | `TarNum_Props.v` | Closed under the global context |
| `C32_octal_accepts_exactly` | `TarNum_Props.v` | Closed under the global context |
| `C32_octal_field_exact` | `TarNum_Props.v` | Closed under the global context |
| `C32_octal_roundtrip` | `TarNum_Props.v` | Closed under the global context |
| `C32_long_octal_overflow_refuted` | `TarNum_Props.v` | Closed under the global context |
| `C32_sparse_map_0x1_roundtrip` | `TarNum_Props.v` | Closed under the global context |
| `C32_sparse_map_1x0_roundtrip` | `TarNum_Props.v` | Closed under the global context |
| `C32_sparse_map_old_roundtrip` | `TarNum_Props.v` | Closed under the global context |
| `C32_integers_exactly` | `TarNum_Props.v` | Closed under the global context |
| `C32_sparse_map_0x1_exactly` | `TarNum_Props.v` | Closed under the global context |
| `C32_sparse_map_1x0_exactly` | `TarNum_Props.v` | Closed under the global context |
| `C33_batches_are_the_listing_once` | `Paging_Props.v` | Closed under the global context |
| `C33_tar_handle` | `Paging_Props.v` | Closed under the global context |
| `C33_tar_directory` | `Paging_Props.v` | Closed under the global context |
| `C33_tar_entry_lost_refuted` | `Paging_Props.v` | Closed under the global context |
| `C33_synthfs_handle_partial` | `Paging_Props.v` | Closed under the global context |
| `C33_overlayfs_handle_partial` | `Paging_Props.v` | Closed under the global context |
| `C33_huge_batch_panics_refuted` | `Paging_Props.v` | Closed under the global context |
| `C33_sftp_handle_partial` | `Paging_Props.v` | Closed under the global context |
| `C33_sftp_rewind_refuted` | `Paging_Props.v` | Closed under the global context |
| `C33_overlayfs_lists_as_of_opening_or_rewinding_partial` | `Paging_Props.v` | Closed under the global context |
| `C33_reads_page_through_one_listing` | `Paging_Props.v` | Closed under the global context |
| `C33_sftp_lists_as_of_the_first_read_partial` | `Paging_Props.v` | Closed under the global context |
| `C33_synthfs_removal_hides_a_neighbour_refuted` | `Paging_Props.v` | Closed under the global context |
| `C33_closed_handles_list_nothing` | `Paging_Props.v` | Closed under the global context |
| `C33_seeks` | `Paging_Props.v` | Closed under the global context |
| `C33_sftp_lists_when_closed_refuted` | `Paging_Props.v` | Closed under the global context |
| `C34_walk_ends` | `Walk_Props.v` | Closed under the global context |
| `C34_reports_what_is_reachable` | `Walk_Props.v` | Closed under the global context |
| `C34_once_per_path` | `Walk_Props.v` | Closed under the global context |
| `C34_stops_when_told` | `Walk_Props.v` | Closed under the global context |
| `C34_ignored_error_hides_siblings_refuted` | `Walk_Props.v` | Closed under the global context |
| `C34_skipdir_on_lost_name_reaches_the_parent_refuted` | `Walk_Props.v` | Closed under the global context |
| `C35_forwarded_paths_stay_below` | `Views_Props.v` | Closed under the global context |
| `C35_inside_calls_are_forwarded` | `Views_Props.v` | Closed under the global context |
| `C35_remove_of_root_is_forwarded_refuted` | `Views_Props.v` | Closed under the global context |
| `C36_only_reads_reach_the_inner_fs` | `Views_Props.v` | Closed under the global context |
| `C36_reads_are_passed_on` | `Views_Props.v` | Closed under the global context |
| `C37_file_is_an_array_with_holes` | `MemBuf_Props.v` | Closed under the global context |
| `C37_one_call` | `MemBuf_Props.v` | Closed under the global context |
| `C37_truncate_always_returns_refuted` | `MemBuf_Props.v` | Closed under the global context |
| `C38_one_handle_loses_nothing_partial` | `MemBuf_Props.v` | Closed under the global context |
| `C38_two_handles_lose_a_write_refuted` | `MemBuf_Props.v` | Closed under the global context |
| `C39_inside_the_root` | `Synth_Props.v` | Closed under the global context |
| `C39_parent_inside_the_root` | `Synth_Props.v` | Closed under the global context |
| `C39_sub_root_inside` | `Synth_Props.v` | Closed under the global context |
| `C39_is_path_resolution` | `Synth_Props.v` | Closed under the global context |
| `C40_stays_a_tree` | `Synth_Props.v` | Closed under the global context |
| `C40_listing_is_lookup` | `Synth_Props.v` | Closed under the global context |
| `C40_names_stay_proper` | `Synth_Props.v` | Closed under the global context |
| `C40_ends_and_no_cycles_partial` | `Synth_Props.v` | Closed under the global context |
| `C40_effects` | `Synth_Props.v` | Closed under the global context |
| `C40_touches_only_what_it_names_partial` | `Synth_Props.v` | Closed under the global context |
| `C40_mkdir_all` | `Synth_Props.v` | Closed under the global context |
| `C40_chmod` | `Synth_Props.v` | Closed under the global context |
| `C40_no_cycles_refuted` | `Synth_Props.v` | Closed under the global context |
| `C40_ends_refuted` | `Synth_Props.v` | Closed under the global context |
| `C40_failing_create_changes_nothing_refuted` | `Synth_Props.v` | Closed under the global context |
| `C41_failure_changes_nothing` | `Synth_Props.v` | Closed under the global context |
| `C41_moves_one_subtree_partial` | `Synth_Props.v` | Closed under the global context |
| `C41_refuses_below_itself_refuted` | `Synth_Props.v` | Closed under the global context |
| `C42_parents` | `SynthAdd_Props.v` | Closed under the global context |
| `C42_touches_only_below` | `SynthAdd_Props.v` | Closed under the global context |
| `C42_keeps_existing_partial` | `SynthAdd_Props.v` | Closed under the global context |
| `C42_merge_keep_is_gentle` | `SynthAdd_Props.v` | Closed under the global context |
| `C42_fail_on_conflict` | `SynthAdd_Props.v` | Closed under the global context |
| `C42_in_place` | `SynthAdd_Props.v` | Closed under the global context |
| `C42_merge_overwrite_places` | `SynthAdd_Props.v` | Closed under the global context |
| `C42_something_in_place` | `SynthAdd_Props.v` | Closed under the global context |
| `C42_add_file` | `SynthAdd_Props.v` | Closed under the global context |
| `C42_merge_keep_removes_refuted` | `SynthAdd_Props.v` | Closed under the global context |
| `C42_keep_adds_refuted` | `SynthAdd_Props.v` | Closed under the global context |
| `C42_dangling_parent_refuted` | `SynthAdd_Props.v` | Closed under the global context |
| `C43_released_with_the_last_name_partial` | `SynthView_Props.v` | Closed under the global context |
| `C43_hard_link_refuted` | `SynthView_Props.v` | Closed under the global context |
| `C43_closed_once_refuted` | `SynthView_Props.v` | Closed under the global context |
| `C43_self_rename_refuted` | `SynthView_Props.v` | Closed under the global context |
| `C43_keep_over_file_leaks_refuted` | `SynthView_Props.v` | Closed under the global context |
| `C43_file_over_directory_leaks_refuted` | `SynthView_Props.v` | Closed under the global context |
| `C44_lookup_is_the_merged_tree` | `Overlay_Props.v` | Closed under the global context |
| `C44_listing_is_the_merged_tree` | `Overlay_Props.v` | Closed under the global context |
| `C44_search_from_a_layer` | `Overlay_Props.v` | Closed under the global context |
| `C44_not_a_directory` | `Overlay_Props.v` | Closed under the global context |
| `C44_merged_view_is_a_tree` | `Overlay_Props.v` | Closed under the global context |
| `C44_visible_iff_listed_refuted` | `Overlay_Props.v` | Closed under the global context |
| `C45_remove_takes_exactly_the_subtree` | `OverlayOps_Props.v` | Closed under the global context |
| `C45_remove_all_takes_exactly_the_subtree` | `OverlayOps_Props.v` | Closed under the global context |
| `C45_interrupted_removal` | `OverlayOps_Props.v` | Closed under the global context |
| `C45_full_directory_refused` | `OverlayOps_Props.v` | Closed under the global context |
| `C45_remove_succeeds` | `OverlayOps_Props.v` | Closed under the global context |
| `C46_new_directory_is_empty` | `OverlayOps_Props.v` | Closed under the global context |
| `C46_mkdir_all` | `OverlayOps_Props.v` | Closed under the global context |
| `C46_new_file` | `OverlayOps_Props.v` | Closed under the global context |
| `C46_new_symlink` | `OverlayOps_Props.v` | Closed under the global context |
| `C46_new_link` | `OverlayOps_Props.v` | Closed under the global context |
| `C46_creation_succeeds` | `OverlayOps_Props.v` | Closed under the global context |
| `C47_copy_up_keeps_the_tree` | `OverlayOps_Props.v` | Closed under the global context |
| `C47_copy_up_invisible_partial` | `OverlayOps_Props.v` | Closed under the global context |
| `C47_copy_up_succeeds` | `OverlayOps_Props.v` | Closed under the global context |
| `C47_open_keeps_content` | `OverlayOps_Props.v` | Closed under the global context |
| `C47_open_succeeds` | `OverlayOps_Props.v` | Closed under the global context |
| `C47_chmod_changes_one_mode` | `OverlayOps_Props.v` | Closed under the global context |
| `C47_write_changes_one_file` | `OverlayOps_Props.v` | Closed under the global context |
| `C47_parent_permissions_kept_refuted` | `OverlayOps_Props.v` | Closed under the global context |
| `C47_special_bits_kept_refuted` | `OverlayOps_Props.v` | Closed under the global context |
| `C48_lowers_never_written` | `OverlayOps_Props.v` | Closed under the global context |
| `C48_lowers_never_written_by_histories` | `OverlayOps_Props.v` | Closed under the global context |
| `C49_rename_moves_the_subtree` | `OverlayOps_Props.v` | Closed under the global context |
| `C49_refused_rename_changes_nothing` | `OverlayOps_Props.v` | Closed under the global context |
| `C49_nothing_lost_on_the_way` | `OverlayOps_Props.v` | Closed under the global context |
| `C50_no_call_resurfaces_lower_content` | `OverlayOps_Props.v` | Closed under the global context |
| `C50_finished_rename` | `OverlayOps_Props.v` | Closed under the global context |
| `C50_histories_with_crashes` | `OverlayOps_Props.v` | Closed under the global context |
| `C50_rename_cut_short_partial` | `OverlayOps_Props.v` | Closed under the global context |
| `C50_rename_over_deleted_directory_refuted` | `OverlayOps_Props.v` | Closed under the global context |
| `C50_rename_away_refuted` | `OverlayOps_Props.v` | Closed under the global context |
| `C51_masks_equal_store` | `Masks_Props.v` | Closed under the global context |
| `C51_table_well_kept` | `Masks_Props.v` | Closed under the global context |
| `C51_unreported_commit_refuted` | `Masks_Props.v` | Closed under the global context |
| `C51_restart_changes_no_answer` | `Masks_Props.v` | Closed under the global context |
| `C51_range_is_prefix` | `Masks_Props.v` | Closed under the global context |
| `C51_set_whiteout_rows` | `Masks_Props.v` | Closed under the global context |
| `C51_set_opaque_rows` | `Masks_Props.v` | Closed under the global context |
| `C51_clear_whiteout_rows` | `Masks_Props.v` | Closed under the global context |
| `C51_clear_opaque_rows` | `Masks_Props.v` | Closed under the global context |
| `C51_names_read_alike` | `Masks_Props.v` | Closed under the global context |
| `C51_calls_step_alike` | `Masks_Props.v` | Closed under the global context |
| `C52_tracker_counts` | `Handles_Props.v` | Closed under the global context |
| `C52_remove_needs_no_handle` | `Handles_Props.v` | Closed under the global context |
| `C52_remove_all_needs_no_handle` | `Handles_Props.v` | Closed under the global context |
| `C52_refusal_changes_nothing` | `Handles_Props.v` | Closed under the global context |
| `C52_gate_is_only_for_handles` | `Handles_Props.v` | Closed under the global context |
| `C52_close_counts_once` | `Handles_Props.v` | Closed under the global context |
| `C52_open_files_stay_partial` | `Handles_Props.v` | Closed under the global context |
| `C52_rename_loses_handle_refuted` | `Handles_Props.v` | Closed under the global context |
| `C52_stale_name_refuted` | `Handles_Props.v` | Closed under the global context |
| `C52_synth_counts_handles` | `SynthHandles_Props.v` | Closed under the global context |
| `C52_synth_remove_needs_no_handle` | `SynthHandles_Props.v` | Closed under the global context |
| `C52_synth_close_counts_once` | `SynthHandles_Props.v` | Closed under the global context |
| `C53_names_resolve_lexically` | `Sftp_Props.v` | Closed under the global context |
| `C53_resolved_names_are_inside` | `Sftp_Props.v` | Closed under the global context |
| `C53_requests_stay_inside` | `Sftp_Props.v` | Closed under the global context |
| `C53_removal_stays_inside` | `Sftp_Props.v` | Closed under the global context |
| `C53_only_the_subtree_goes` | `Sftp_Props.v` | Closed under the global context |
| `C53_base_is_refused` | `Sftp_Props.v` | Closed under the global context |
| `C53_success_means_gone_partial` | `Sftp_Props.v` | Closed under the global context |
| `C53_removes_all_when_served_partial` | `Sftp_Props.v` | Closed under the global context |
| `C53_removal_ends` | `Sftp_Props.v` | Closed under the global context |
| `C53_success_means_gone_refuted` | `Sftp_Props.v` | Closed under the global context |
| `C54_read_at_error_names_segment` | `MultiRead_Props.v` | Closed under the global context |
| `C54_read_error_index_refuted` | `MultiRead_Props.v` | Closed under the global context |
| `C55_failed_truncate_never_returns` | `SynthHandles_Props.v` | Closed under the global context |
| `C55_open_returns_refuted` | `SynthHandles_Props.v` | Closed under the global context |
| `C55_open_returns_partial` | `SynthHandles_Props.v` | Closed under the global context |
| `C55_open_truncates_partial` | `SynthHandles_Props.v` | Closed under the global context |
| `C56_create_replaces_permissions` | `Sftp_Props.v` | Closed under the global context |
| `C56_mkdir_all_replaces_permissions` | `Sftp_Props.v` | Closed under the global context |
| `C56_existing_permissions_stay_refuted` | `Sftp_Props.v` | Closed under the global context |
| `C56_existing_permissions_stay_partial` | `Sftp_Props.v` | Closed under the global context |
| `C56_new_file_permissions` | `Sftp_Props.v` | Closed under the global context |
| `C57_name_is_one_segment` | `FileClient_Props.v` | Closed under the global context |
| `C57_names_do_not_collide` | `FileClient_Props.v` | Closed under the global context |
| `C57_survives_normalising` | `FileClient_Props.v` | Closed under the global context |
| `C57_client_is_a_map` | `FileClient_Props.v` | Closed under the global context |
| `C57_put_touches_only_its_object` | `FileClient_Props.v` | Closed under the global context |
| `C57_base_with_query_refuted` | `FileClient_Props.v` | Closed under the global context |
| `C57_base_with_query_overwrites_refuted` | `FileClient_Props.v` | Closed under the global context |
| `C57_base_with_fragment_refuted` | `FileClient_Props.v` | Closed under the global context |
| `C57_dotdot_name_refuted` | `FileClient_Props.v` | Closed under the global context |
| `C58_range_names_the_offset` | `FileClient_Props.v` | Closed under the global context |
| `C58_get_delivers_from_offset` | `FileClient_Props.v` | Closed under the global context |
| `C58_get_size_is_right` | `FileClient_Props.v` | Closed under the global context |
| `C58_ignored_range_is_an_error` | `FileClient_Props.v` | Closed under the global context |
| `C58_not_exist_is_404_or_410` | `FileClient_Props.v` | Closed under the global context |
| `C58_get_settles_the_body` | `FileClient_Props.v` | Closed under the global context |
| `C58_stat_and_put_close_the_body` | `FileClient_Props.v` | Closed under the global context |
| `C58_stat_reports_stated_length` | `FileClient_Props.v` | Closed under the global context |
| `C58_put_succeeds_on_2xx` | `FileClient_Props.v` | Closed under the global context |
| `C58_wrong_start_accepted_refuted` | `FileClient_Props.v` | Closed under the global context |
| `C58_partial_taken_for_whole_refuted` | `FileClient_Props.v` | Closed under the global context |
| `C58_unknown_size_is_minus_one_refuted` | `FileClient_Props.v` | Closed under the global context |
| `C59_handle_is_a_cursor_over_the_range` | `RoViews_Props.v` | Closed under the global context |
| `C59_ranges_accepted` | `RoViews_Props.v` | Closed under the global context |
| `C59_opens_for_reading_only` | `RoViews_Props.v` | Closed under the global context |
| `C59_size_is_length_within_partial` | `RoViews_Props.v` | Closed under the global context |
| `C59_whole_read_is_the_range_partial` | `RoViews_Props.v` | Closed under the global context |
| `C59_size_past_the_end_refuted` | `RoViews_Props.v` | Closed under the global context |
| `C60_a_writer_is_alone` | `SqlVfs_Props.v` | Closed under the global context |
| `C60_read_only_handles_stay_below_reserved` | `SqlVfs_Props.v` | Closed under the global context |
| `C60_only_a_lock_got_raises_the_level` | `SqlVfs_Props.v` | Closed under the global context |
| `C60_a_free_lock_is_granted` | `SqlVfs_Props.v` | Closed under the global context |
| `C60_a_locked_handle_sees_one_version_partial` | `SqlVfs_Props.v` | Closed under the global context |
| `C60_upgrade_keeps_the_version_refuted` | `SqlVfs_Props.v` | Closed under the global context |
| `C60_downgrade_keeps_the_version_refuted` | `SqlVfs_Props.v` | Closed under the global context |
| `C60_failed_conversion_excludes_refuted` | `SqlVfs_Props.v` | Closed under the global context |
| `C60_backend_without_locks_excludes_refuted` | `SqlVfs_Props.v` | Closed under the global context |
| `C61_names_are_local` | `SqlVfs_Props.v` | Closed under the global context |
| `C61_full_pathname_is_stable` | `SqlVfs_Props.v` | Closed under the global context |
| `C61_appended_names_are_siblings` | `SqlVfs_Props.v` | Closed under the global context |
| `C61_dsn_names_the_file` | `SqlVfs_Props.v` | Closed under the global context |
| `C62_name_absent_or_whole` | `CopyUp_Props.v` | Closed under the global context |
| `C62_adds_nothing_else` | `CopyUp_Props.v` | Closed under the global context |
| `C62_served_succeeds` | `CopyUp_Props.v` | Closed under the global context |
| `C62_served_copy_is_exact` | `CopyUp_Props.v` | Closed under the global context |
| `C62_failed_copy_leaves_no_temp` | `CopyUp_Props.v` | Closed under the global context |
| `C62_temporaries_never_meet` | `CopyUp_Props.v` | Closed under the global context |
| `C62_new_sweeps_work_only` | `CopyUp_Props.v` | Closed under the global context |
| `C62_restart_recovers` | `CopyUp_Props.v` | Closed under the global context |
| `C62_power_loss_refuted` | `CopyUp_Props.v` | Closed under the global context |
| `C62_attributes_may_differ_refuted` | `CopyUp_Props.v` | Closed under the global context |
| `C62_linked_work_refuted` | `CopyUp_Props.v` | Closed under the global context |
| `C63_to_io_passes_exactly_valid` | `IoBridge_Props.v` | Closed under the global context |
| `C63_from_io_asks` | `IoBridge_Props.v` | Closed under the global context |
| `C63_from_io_asks_valid_partial` | `IoBridge_Props.v` | Closed under the global context |
| `C63_from_io_asks_invalid_refuted` | `IoBridge_Props.v` | Closed under the global context |
| `C63_from_then_to` | `IoBridge_Props.v` | Closed under the global context |
| `C63_to_then_from` | `IoBridge_Props.v` | Closed under the global context |
| `C63_normalizer_cleans_paths_only` | `IoBridge_Props.v` | Closed under the global context |
| `C63_localizer_is_normalizer` | `IoBridge_Props.v` | Closed under the global context |
| `C64_names_come_through_partial` | `IoBridge_Props.v` | Closed under the global context |
| `C64_entries_beside_an_error_refuted` | `IoBridge_Props.v` | Closed under the global context |
| `C64_infos_come_through_partial` | `IoBridge_Props.v` | Closed under the global context |
| `C64_gone_entry_gives_nil_refuted` | `IoBridge_Props.v` | Closed under the global context |
| `C64_listing_looks_again` | `IoBridge_Props.v` | Closed under the global context |
| `C64_read_dir_sorts` | `IoBridge_Props.v` | Closed under the global context |
| `C64_sort_exists` | `IoBridge_Props.v` | Closed under the global context |
| `C65_names_stay_inside` | `OverlayRoot_Props.v` | Closed under the global context |
| `C65_reads_reach_what_is_there` | `OverlayRoot_Props.v` | Closed under the global context |
| `C65_sub_roots_nest` | `OverlayRoot_Props.v` | Closed under the global context |
| `C65_outside_is_not_asked` | `OverlayRoot_Props.v` | Closed under the global context |
| `C65_sub_root_is_part_of_its_parent` | `OverlayRoot_Props.v` | Closed under the global context |
| `C65_calls_land_inside_partial` | `OverlayRoot_Props.v` | Closed under the global context |
| `C65_writes_land_inside_partial` | `OverlayRoot_Props.v` | Closed under the global context |
| `C65_only_creates_open_links` | `OverlayRoot_Props.v` | Closed under the global context |
| `C65_creates_stay_inside_refuted` | `OverlayRoot_Props.v` | Closed under the global context |
| `C65_sub_root_outlives_its_directory_refuted` | `OverlayRoot_Props.v` | Closed under the global context |
| `C66_makes_the_missing_directories` | `OverlayRoot_Props.v` | Closed under the global context |
| `C66_succeeds_over_directories` | `OverlayRoot_Props.v` | Closed under the global context |
| `C66_failure_leaves_a_leading_part` | `OverlayRoot_Props.v` | Closed under the global context |
| `C66_refused_before_anything_is_made` | `OverlayRoot_Props.v` | Closed under the global context |
| `C66_makes_them_in_place` | `OverlayRoot_Props.v` | Closed under the global context |
| `C66_existing_directory_is_success_refuted` | `OverlayRoot_Props.v` | Closed under the global context |
| `C66_makes_only_inside_refuted` | `OverlayRoot_Props.v` | Closed under the global context |
| `C67_finds_every_entry_partial` | `TarSections_Props.v` | Closed under the global context |
| `C67_plain_content_partial` | `TarSections_Props.v` | Closed under the global context |
| `C67_sparse_content_partial` | `TarSections_Props.v` | Closed under the global context |
| `C67_contiguous_file_refuted` | `TarSections_Props.v` | Closed under the global context |
| `C68_successful_push_stores_file_partial` | `Transfer_Props.v` | Closed under the global context |
| `C68_complete_means_stored` | `Transfer_Props.v` | Closed under the global context |
| `C68_undisturbed_push_completes_partial` | `Transfer_Props.v` | Closed under the global context |
| `C68_pushes_keep_progress_and_other_objects` | `Transfer_Props.v` | Closed under the global context |
| `C68_opened_body_is_chunk_tail` | `Transfer_Props.v` | Closed under the global context |
| `C68_download_delivers_file` | `Transfer_Props.v` | Closed under the global context |
| `C68_undisturbed_download_is_exact` | `Transfer_Props.v` | Closed under the global context |
| `C68_empty_file_refuted` | `Transfer_Props.v` | Closed under the global context |
| `C68_shrinking_file_refuted` | `Transfer_Props.v` | Closed under the global context |
| `C68_only_the_last_chunk_can_be_short` | `Transfer_Props.v` | Closed under the global context |
| `C68_unaligned_append_refused` | `Transfer_Props.v` | Closed under the global context |
| `C69_taken_iff_inside` | `OsFs_Props.v` | Closed under the global context |
| `C69_calls_stay_under_the_root` | `OsFs_Props.v` | Closed under the global context |
| `C69_kernel_reaches_the_named_place_partial` | `OsFs_Props.v` | Closed under the global context |
| `C69_linkless_names_reach_their_place_partial` | `OsFs_Props.v` | Closed under the global context |
| `C69_remove_takes_the_root_refuted` | `OsFs_Props.v` | Closed under the global context |
| `C69_trailing_slash_refuted` | `OsFs_Props.v` | Closed under the global context |
| `C69_dotdot_after_link_refuted` | `OsFs_Props.v` | Closed under the global context |
| `C70_names_unique` | `Afero_Props.v` | Closed under the global context |
| `C70_stat` | `Afero_Props.v` | Closed under the global context |
| `C70_mkdir` | `Afero_Props.v` | Closed under the global context |
| `C70_chmod` | `Afero_Props.v` | Closed under the global context |
| `C70_mkdir_all` | `Afero_Props.v` | Closed under the global context |
| `C70_open` | `Afero_Props.v` | Closed under the global context |
| `C70_open_error_changes_nothing` | `Afero_Props.v` | Closed under the global context |
| `C70_remove` | `Afero_Props.v` | Closed under the global context |
| `C70_remove_all_partial` | `Afero_Props.v` | Closed under the global context |
| `C70_remove_all_refuted` | `Afero_Props.v` | Closed under the global context |
| `C70_rename_partial` | `Afero_Props.v` | Closed under the global context |
| `C70_rename_error_changes_nothing` | `Afero_Props.v` | Closed under the global context |
| `C70_rename_keeps_the_old_name` | `Afero_Props.v` | Closed under the global context |
| `C70_rename_refuted` | `Afero_Props.v` | Closed under the global context |
| `C70_rename_destroys_refuted` | `Afero_Props.v` | Closed under the global context |
| `C70_add_file` | `Afero_Props.v` | Closed under the global context |
| `C70_reallocate` | `Afero_Props.v` | Closed under the global context |
| `C70_views_closed_once_partial` | `Afero_Props.v` | Closed under the global context |
| `C70_views_closed_once_refuted` | `Afero_Props.v` | Closed under the global context |
| `C70_no_view_lost_partial` | `Afero_Props.v` | Closed under the global context |
| `C70_no_view_lost_refuted` | `Afero_Props.v` | Closed under the global context |
| `C70_file_umask_refuted` | `Afero_Props.v` | Closed under the global context |
| `C70_mkdir_all_unwritable_refuted` | `Afero_Props.v` | Closed under the global context |
| `C70_mkdir_names_refuted` | `Afero_Props.v` | Closed under the global context |
| `C70_chmod_type_refuted` | `Afero_Props.v` | Closed under the global context |
| `C71_memory_file` | `AferoFile_Props.v` | Closed under the global context |
| `C71_ranged_read_at` | `AferoFile_Props.v` | Closed under the global context |
| `C71_ranged_reads` | `AferoFile_Props.v` | Closed under the global context |
| `C71_ranged_size_partial` | `AferoFile_Props.v` | Closed under the global context |
| `C71_ranged_size_refuted` | `AferoFile_Props.v` | Closed under the global context |
| `C71_temporary_files_partial` | `AferoFile_Props.v` | Closed under the global context |
| `C71_close_removes_temporary_refuted` | `AferoFile_Props.v` | Closed under the global context |
| `C72_readdir` | `AferoFile_Props.v` | Closed under the global context |
| `C72_readdir_once` | `AferoFile_Props.v` | Closed under the global context |
| `C72_closed_stays_closed` | `AferoFile_Props.v` | Closed under the global context |
| `C72_late_calls_refused` | `AferoFile_Props.v` | Closed under the global context |
| `C72_each_call_once` | `AferoFile_Props.v` | Closed under the global context |
| `C72_closed_once_refuted` | `AferoFile_Props.v` | Closed under the global context |
| `C72_no_use_after_close_refuted` | `AferoFile_Props.v` | Closed under the global context |
| `C72_metadata` | `AferoFile_Props.v` | Closed under the global context |
| `C72_write_sets_time_refuted` | `AferoFile_Props.v` | Closed under the global context |
| `C72_chmod_kept_refuted` | `AferoFile_Props.v` | Closed under the global context |
| `C73_is_reaches` | `Errors_Props.v` | Closed under the global context |
| `C73_wrap_path` | `Errors_Props.v` | Closed under the global context |
| `C73_wrap_path_fields` | `Errors_Props.v` | Closed under the global context |
| `C73_wrap_link` | `Errors_Props.v` | Closed under the global context |
| `C73_wrap_link_fields` | `Errors_Props.v` | Closed under the global context |
| `C73_wrap_leaves_other_texts_partial` | `Errors_Props.v` | Closed under the global context |
| `C73_wrap_leaves_other_texts_refuted` | `Errors_Props.v` | Closed under the global context |
| `C73_prefix` | `Errors_Props.v` | Closed under the global context |
| `C73_gather` | `Errors_Props.v` | Closed under the global context |
| `C73_gather_checked` | `Errors_Props.v` | Closed under the global context |
| `C73_gather_prefixed` | `Errors_Props.v` | Closed under the global context |
| `C73_translate_leaves_others` | `Errors_Props.v` | Closed under the global context |
| `C73_translate_escapes` | `Errors_Props.v` | Closed under the global context |
| `C73_translate_keeps_path` | `Errors_Props.v` | Closed under the global context |
| `C73_translate_keeps_link_partial` | `Errors_Props.v` | Closed under the global context |
| `C73_translate_keeps_link_refuted` | `Errors_Props.v` | Closed under the global context |
| `C74_names` | `AferoIo_Props.v` | Closed under the global context |
| `C74_path` | `AferoIo_Props.v` | Closed under the global context |
| `C74_same_elements` | `AferoIo_Props.v` | Closed under the global context |
| `C74_valid_names_partial` | `AferoIo_Props.v` | Closed under the global context |
| `C74_valid_names_refuted` | `AferoIo_Props.v` | Closed under the global context |
| `C74_adapter` | `AferoIo_Props.v` | Closed under the global context |
| `C74_files_read_only` | `AferoIo_Props.v` | Closed under the global context |
| `C74_files` | `AferoIo_Props.v` | Closed under the global context |
| `C74_readonly_flag_refuted` | `AferoIo_Props.v` | Closed under the global context |
| `C74_lists_directories_partial` | `AferoIo_Props.v` | Closed under the global context |
| `C74_lists_directories_refuted` | `AferoIo_Props.v` | Closed under the global context |
| `C74_listing_partial` | `AferoIo_Props.v` | Closed under the global context |
| `C74_listing_refuted` | `AferoIo_Props.v` | Closed under the global context |
| `C74_history` | `AferoIo_Props.v` | Closed under the global context |
| `C74_history_shows_partial` | `AferoIo_Props.v` | Closed under the global context |
| `C74_history_shows_refuted` | `AferoIo_Props.v` | Closed under the global context |
| `C75_returns_partial` | `Locks_Props.v` | Closed under the global context |
| `C75_circular_views_refuted` | `Locks_Props.v` | Closed under the global context |
| `C75_callbacks_refuted` | `Locks_Props.v` | Closed under the global context |
| `C75_failed_truncation_refuted` | `Locks_Props.v` | Closed under the global context |
| `C76_race_free_partial` | `Locks_Props.v` | Closed under the global context |
| `C76_listing_refuted` | `Locks_Props.v` | Closed under the global context |
| `C76_positions_refuted` | `Locks_Props.v` | Closed under the global context |
| `C77_calls_return` | `AferoRace_Props.v` | Closed under the global context |
| `C77_answers` | `AferoRace_Props.v` | Closed under the global context |
| `C77_directories_consistent` | `AferoRace_Props.v` | Closed under the global context |
| `C77_apart` | `AferoRace_Props.v` | Closed under the global context |
| `C77_kept_partial` | `AferoRace_Props.v` | Closed under the global context |
| `C77_exclusive_refuted` | `AferoRace_Props.v` | Closed under the global context |
| `C77_kept_refuted` | `AferoRace_Props.v` | Closed under the global context |
| `C77_remove_refuted` | `AferoRace_Props.v` | Closed under the global context |
| `C77_rename_atomic_refuted` | `AferoRace_Props.v` | Closed under the global context |
| `C77_one_place_refuted` | `AferoRace_Props.v` | Closed under the global context |
| `C77_rename_cycle_refuted` | `AferoRace_Props.v` | Closed under the global context |
| `C78_one_request` | `HttpLane_Props.v` | Closed under the global context |
| `C78_served_bytes` | `HttpLane_Props.v` | Closed under the global context |
| `C78_in_order_once` | `HttpLane_Props.v` | Closed under the global context |
| `C78_body_closed` | `HttpLane_Props.v` | Closed under the global context |
| `C78_calls_return` | `HttpLane_Props.v` | Closed under the global context |
| `C78_ahead_never_waits` | `HttpLane_Props.v` | Closed under the global context |
| `C78_unserved_never_queue_refuted` | `HttpLane_Props.v` | Closed under the global context |
| `C79_calls_happen_in_some_order_partial` | `MemRace_Props.v` | Closed under the global context |
| `C79_append_with_truncate_refuted` | `MemRace_Props.v` | Closed under the global context |
| `C79_closed_handles_refuse` | `MemRace_Props.v` | Closed under the global context |
| `C79_refused_only_when_closed` | `MemRace_Props.v` | Closed under the global context |
| `C79_close_waits_for_calls_refuted` | `MemRace_Props.v` | Closed under the global context |
| `C79_every_call_can_return` | `MemRace_Props.v` | Closed under the global context |
| `C80_bad_names` | `AferoErr_Props.v` | Closed under the global context |
| `C80_stat` | `AferoErr_Props.v` | Closed under the global context |
| `C80_chmod` | `AferoErr_Props.v` | Closed under the global context |
| `C80_mkdir` | `AferoErr_Props.v` | Closed under the global context |
| `C80_mkdir_all` | `AferoErr_Props.v` | Closed under the global context |
| `C80_open` | `AferoErr_Props.v` | Closed under the global context |
| `C80_remove` | `AferoErr_Props.v` | Closed under the global context |
| `C80_remove_all` | `AferoErr_Props.v` | Closed under the global context |
| `C80_rename` | `AferoErr_Props.v` | Closed under the global context |
| `C80_add_file` | `AferoErr_Props.v` | Closed under the global context |
| `C80_reallocate` | `AferoErr_Props.v` | Closed under the global context |
| `C80_names` | `AferoErr_Props.v` | Closed under the global context |
| `C80_mkdir_reveals_refuted` | `AferoErr_Props.v` | Closed under the global context |
| `C80_mkdir_all_made_refuted` | `AferoErr_Props.v` | Closed under the global context |
| `C80_mkdir_long_refuted` | `AferoErr_Props.v` | Closed under the global context |
| `C81_names` | `SynthErr_Props.v` | Closed under the global context |
| `C81_places` | `SynthErr_Props.v` | Closed under the global context |
| `C81_mkdir` | `SynthErr_Props.v` | Closed under the global context |
| `C81_symlink` | `SynthErr_Props.v` | Closed under the global context |
| `C81_link` | `SynthErr_Props.v` | Closed under the global context |
| `C81_mkdir_all` | `SynthErr_Props.v` | Closed under the global context |
| `C81_remove` | `SynthErr_Props.v` | Closed under the global context |
| `C81_remove_all` | `SynthErr_Props.v` | Closed under the global context |
| `C81_rename` | `SynthErr_Props.v` | Closed under the global context |
| `C81_open` | `SynthErr_Props.v` | Closed under the global context |
| `C81_chmod` | `SynthErr_Props.v` | Closed under the global context |
| `C81_open_root` | `SynthErr_Props.v` | Closed under the global context |
| `C81_add_file` | `SynthErr_Props.v` | Closed under the global context |
| `C81_add_fs` | `SynthErr_Props.v` | Closed under the global context |
| `C81_mkdir_all_over_file_refuted` | `SynthErr_Props.v` | Closed under the global context |
| `C81_create_through_link_refuted` | `SynthErr_Props.v` | Closed under the global context |
| `C81_rename_mixes_kinds_refuted` | `SynthErr_Props.v` | Closed under the global context |
| `C82_random_policy` | `Cleanup_Props.v` | Closed under the global context |
| `C82_dir_policy_partial` | `Cleanup_Props.v` | Closed under the global context |
| `C82_dir_policy_in_dot_refuted` | `Cleanup_Props.v` | Closed under the global context |
| `C83_answers` | `OverlayErr_Props.v` | Closed under the global context |
| `C83_one_answer` | `OverlayErr_Props.v` | Closed under the global context |
| `C83_link_of_a_directory` | `OverlayErr_Props.v` | Closed under the global context |
| `C83_no_parent` | `OverlayErr_Props.v` | Closed under the global context |
| `C83_rename_of_own_directory_refuted` | `OverlayErr_Props.v` | Closed under the global context |
| `C84_on_the_wire` | `HttpWire_Props.v` | Closed under the global context |
| `C84_read_back` | `HttpWire_Props.v` | Closed under the global context |
| `C84_made_by_calls` | `HttpWire_Props.v` | Closed under the global context |
| `C84_condition` | `HttpWire_Props.v` | Closed under the global context |
| `C84_encoding` | `HttpWire_Props.v` | Closed under the global context |
| `C84_taken_is_uncoded_partial` | `HttpWire_Props.v` | Closed under the global context |
| `C84_origin` | `HttpWire_Props.v` | Closed under the global context |
| `C84_url` | `HttpWire_Props.v` | Closed under the global context |
| `C84_stray_range_refuted` | `HttpWire_Props.v` | Closed under the global context |
| `C84_coded_is_refused_refuted` | `HttpWire_Props.v` | Closed under the global context |
| `C85_mapping` | `SftpErr_Props.v` | Closed under the global context |
| `C85_missing` | `SftpErr_Props.v` | Closed under the global context |
| `C85_sync` | `SftpErr_Props.v` | Closed under the global context |
| `C85_stock_errors_partial` | `SftpErr_Props.v` | Closed under the global context |
| `C85_stock_errors_refuted` | `SftpErr_Props.v` | Closed under the global context |
| `C85_link_onto_existing_refuted` | `SftpErr_Props.v` | Closed under the global context |
| `C85_listing` | `SftpErr_Props.v` | Closed under the global context |
| `C85_listing_failed` | `SftpErr_Props.v` | Closed under the global context |
| `C86_layout` | `Stack_Props.v` | Closed under the global context |
| `C86_layout_answers` | `Stack_Props.v` | Closed under the global context |
| `C86_schema` | `Stack_Props.v` | Closed under the global context |
| `C86_schema_taken` | `Stack_Props.v` | Closed under the global context |
| `C86_foreign_database_refuted` | `Stack_Props.v` | Closed under the global context |
| `C86_store` | `Stack_Props.v` | Closed under the global context |
| `C86_read_only_layer` | `Stack_Props.v` | Closed under the global context |
| `C86_built_again` | `Stack_Props.v` | Closed under the global context |
| `C86_stacked_partial` | `Stack_Props.v` | Closed under the global context |
| `C86_stacks` | `Stack_Props.v` | Closed under the global context |
| `C86_refused` | `Stack_Props.v` | Closed under the global context |
| `C86_sweep_through_a_link_refuted` | `Stack_Props.v` | Closed under the global context |
| `C86_plain_layer` | `Stack_Props.v` | Closed under the global context |
| `C86_closed` | `Stack_Props.v` | Closed under the global context |
| `C87_some_tree` | `OverlayPlain_Props.v` | Closed under the global context |
| `C87_histories` | `OverlayPlain_Props.v` | Closed under the global context |
| `C87_one_layer` | `OverlayPlain_Props.v` | Closed under the global context |
| `C87_lookups` | `OverlayPlain_Props.v` | Closed under the global context |
| `C87_listings` | `OverlayPlain_Props.v` | Closed under the global context |
| `C87_cut_short` | `OverlayPlain_Props.v` | Closed under the global context |
| `C87_renames_are_atomic_refuted` | `OverlayPlain_Props.v` | Closed under the global context |
| `C88_each_call` | `Wrap_Props.v` | Closed under the global context |
| `C88_refused_only_after_close` | `Wrap_Props.v` | Closed under the global context |
| `C88_closed_refuses` | `Wrap_Props.v` | Closed under the global context |
| `C88_some_close_enters` | `Wrap_Props.v` | Closed under the global context |
| `C88_closed_once_partial` | `Wrap_Props.v` | Closed under the global context |
| `C88_closed_once_refuted` | `Wrap_Props.v` | Closed under the global context |
| `C88_no_use_after_close_refuted` | `Wrap_Props.v` | Closed under the global context |
| `C88_recorded` | `Wrap_Props.v` | Closed under the global context |
| `C88_history` | `Wrap_Props.v` | Closed under the global context |
| `C88_balanced` | `Wrap_Props.v` | Closed under the global context |
| `C88_history_pairs_refuted` | `Wrap_Props.v` | Closed under the global context |
| `C89_history_partial` | `SynthPlain_Props.v` | Closed under the global context |
| `C89_lookups` | `SynthPlain_Props.v` | Closed under the global context |
| `C89_listings` | `SynthPlain_Props.v` | Closed under the global context |
| `C89_tree` | `SynthPlain_Props.v` | Closed under the global context |
| `C89_plain_renames` | `SynthPlain_Props.v` | Closed under the global context |
| `C89_renames_partial` | `SynthPlain_Props.v` | Closed under the global context |
| `C89_renames_lose_nothing_refuted` | `SynthPlain_Props.v` | Closed under the global context |
| `C90_history_partial` | `SqlFile_Props.v` | Closed under the global context |
| `C90_descriptors` | `SqlFile_Props.v` | Closed under the global context |
| `C90_unnamed_files_stay_in_memory` | `SqlFile_Props.v` | Closed under the global context |
| `C90_locks_follow_the_level` | `SqlFile_Props.v` | Closed under the global context |
| `C90_delete_on_close_spares_others_refuted` | `SqlFile_Props.v` | Closed under the global context |
| `C90_delete_on_close_after_delete_refuted` | `SqlFile_Props.v` | Closed under the global context |
| `C90_delete_removes_only_files_refuted` | `SqlFile_Props.v` | Closed under the global context |
| `C90_open_refuses_directories_refuted` | `SqlFile_Props.v` | Closed under the global context |
| `C91_copy` | `AferoCopy_Props.v` | Closed under the global context |
| `C91_copy_succeeds` | `AferoCopy_Props.v` | Closed under the global context |
| `C91_copy_errors` | `AferoCopy_Props.v` | Closed under the global context |
| `C91_copy_roots` | `AferoCopy_Props.v` | Closed under the global context |
| `C91_map_partial` | `AferoCopy_Props.v` | Closed under the global context |
| `C91_map_succeeds_partial` | `AferoCopy_Props.v` | Closed under the global context |
| `C91_copy_of_a_file_refuted` | `AferoCopy_Props.v` | Closed under the global context |
| `C91_copy_of_directories_refuted` | `AferoCopy_Props.v` | Closed under the global context |
| `C91_map_of_nested_names_refuted` | `AferoCopy_Props.v` | Closed under the global context |
| `C92_history_partial` | `SynthData_Props.v` | Closed under the global context |
| `C92_written_read` | `SynthData_Props.v` | Closed under the global context |
| `C92_names_leave_data` | `SynthData_Props.v` | Closed under the global context |
| `C92_handles_outlive_names` | `SynthData_Props.v` | Closed under the global context |
| `C92_calls_leave_names` | `SynthData_Props.v` | Closed under the global context |
| `C92_names_share_modes_refuted` | `SynthData_Props.v` | Closed under the global context |
| `C93_one_view` | `Nest_Props.v` | Closed under the global context |
| `C93_added` | `Nest_Props.v` | Closed under the global context |
| `C93_refusal` | `Nest_Props.v` | Closed under the global context |
| `C93_handles` | `Nest_Props.v` | Closed under the global context |
| `C93_sub` | `Nest_Props.v` | Closed under the global context |
| `C93_sub_of_sub` | `Nest_Props.v` | Closed under the global context |
| `C93_readonly_over_prefix` | `Nest_Props.v` | Closed under the global context |
| `C93_widen` | `Nest_Props.v` | Closed under the global context |
| `C93_read_file` | `Nest_Props.v` | Closed under the global context |
| `C93_read_dir` | `Nest_Props.v` | Closed under the global context |
| `C93_write_file` | `Nest_Props.v` | Closed under the global context |
| `C93_write_readonly` | `Nest_Props.v` | Closed under the global context |
| `C93_write_flag` | `Nest_Props.v` | Closed under the global context |
| `C94_tree_partial` | `TarExtract_Props.v` | Closed under the global context |
| `C94_open_partial` | `TarExtract_Props.v` | Closed under the global context |
| `C94_lstat_partial` | `TarExtract_Props.v` | Closed under the global context |
| `C94_listing_partial` | `TarExtract_Props.v` | Closed under the global context |
| `C94_absolute_name_refuted` | `TarExtract_Props.v` | Closed under the global context |
| `C94_link_to_replaced_refuted` | `TarExtract_Props.v` | Closed under the global context |
| `C95_parse` | `SetupLines_Props.v` | Closed under the global context |
| `C95_dir_line` | `SetupLines_Props.v` | Closed under the global context |
| `C95_symlink_line` | `SetupLines_Props.v` | Closed under the global context |
| `C95_file_line_partial` | `SetupLines_Props.v` | Closed under the global context |
| `C95_setup_partial` | `SetupLines_Props.v` | Closed under the global context |
| `C95_lines_partial` | `SetupLines_Props.v` | Closed under the global context |
| `C95_bad_line` | `SetupLines_Props.v` | Closed under the global context |
| `C95_any_order_partial` | `SetupLines_Props.v` | Closed under the global context |
| `C95_order` | `SetupLines_Props.v` | Closed under the global context |
| `C95_blocked` | `SetupLines_Props.v` | Closed under the global context |
| `C95_arrow_in_content_refuted` | `SetupLines_Props.v` | Closed under the global context |
| `C95_slash_in_content_refuted` | `SetupLines_Props.v` | Closed under the global context |
| `C95_link_to_link_refuted` | `SetupLines_Props.v` | Closed under the global context |
| `C96_history_partial` | `StreamTree_Props.v` | Closed under the global context |
| `C96_exact_partial` | `StreamTree_Props.v` | Closed under the global context |
| `C96_read_partial` | `StreamTree_Props.v` | Closed under the global context |
| `C96_read_all_partial` | `StreamTree_Props.v` | Closed under the global context |
| `C96_open_once_partial` | `StreamTree_Props.v` | Closed under the global context |
| `C96_files` | `StreamTree_Props.v` | Closed under the global context |
| `C96_files_error` | `StreamTree_Props.v` | Closed under the global context |
| `C96_sizers` | `StreamTree_Props.v` | Closed under the global context |
| `C96_sizes` | `StreamTree_Props.v` | Closed under the global context |
| `C96_overflow_refuted` | `StreamTree_Props.v` | Closed under the global context |
| `C96_repeater_negative_refuted` | `StreamTree_Props.v` | Closed under the global context |
| `C97_one_file` | `SetupMeta_Props.v` | Closed under the global context |
| `C97_one_dir` | `SetupMeta_Props.v` | Closed under the global context |
| `C97_files_as_asked` | `SetupMeta_Props.v` | Closed under the global context |
| `C97_dir_modes` | `SetupMeta_Props.v` | Closed under the global context |
| `C97_dir_times_partial` | `SetupMeta_Props.v` | Closed under the global context |
| `C97_nothing_else` | `SetupMeta_Props.v` | Closed under the global context |
| `C97_dir_times_refuted` | `SetupMeta_Props.v` | Closed under the global context |
| `C97_old_file_lost_refuted` | `SetupMeta_Props.v` | Closed under the global context |
| `C98_one_read` | `MultiStream_Props.v` | Closed under the global context |
| `C98_answers_handed_on` | `MultiStream_Props.v` | Closed under the global context |
| `C98_histories` | `MultiStream_Props.v` | Closed under the global context |
| `C98_read_to_end` | `MultiStream_Props.v` | Closed under the global context |
| `C99_whole_test` | `TestCtx_Props.v` | Closed under the global context |
| `C99_verdict` | `TestCtx_Props.v` | Closed under the global context |
| `C99_history_tells_calls_apart` | `TestCtx_Props.v` | Closed under the global context |
| `C99_reported_once_refuted` | `TestCtx_Props.v` | Closed under the global context |
| `C100_err_is` | `TestErr_Props.v` | Closed under the global context |
| `C100_nil_err` | `TestErr_Props.v` | Closed under the global context |
| `C100_err_as_type` | `TestErr_Props.v` | Closed under the global context |
| `C100_err_as_type_and` | `TestErr_Props.v` | Closed under the global context |
| `C101_get` | `BufPool_Props.v` | Closed under the global context |
| `C101_never_shared` | `BufPool_Props.v` | Closed under the global context |
| `C101_put` | `BufPool_Props.v` | Closed under the global context |
