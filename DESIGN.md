# Formal model of maxnikulin/burl in Rocq (Coq 8.16.1)

The Go code in `/repo` is read as text and transcribed to total computable Gallina functions; properties from
`properties.jsonl` are theorems about these functions.  `MANIFEST.json` maps properties to theorems.

## Method

* One Gallina definition per Go function (or per loop); every definition cites lines of the Go file and says what is simplified.
* Go `string`/`[]byte` is `list ascii` (`str`), any list is a possible byte string; a rune is an `N`.  UTF-8 as in Go.
* Go `int` is `Z` or `nat`.  Where overflow matters there is an explicit 64-bit wrap (`wrap`, limits of counters), 32-bit sizes of
  frames are reduced modulo 2^32.
* An error is a value (`result`), a panic is an explicit outcome (`Panic`, `HPanic`, `LPanic`...), nil is an `option` or a constructor.
* Loops are structural recursion, folds or machines with fuel; running out of fuel is a separate outcome that is proved
  unreachable (theorems either give the amount of fuel or say that the outcome is a different constructor).
* The environment is an explicit argument: chunks that are delivered by streams, results of commands, contents of files and failures of reading,
  failures of system calls, the order of iteration over Go maps, Unicode tables outside of ASCII, the schedule of goroutines.
* Goroutines are threads of a labelled transition system, crash points are prefixes of runs of system calls.
* Pointers and slices with shared storage are modelled where sharing matters: `LinkHeap.v` (tree of links), `Emacs.v` (command line),
  `Extract.v` (queue of parents); elsewhere comments say why a value is enough.

Files: `X.v` model, `XSpec.v` independent specification (small; no functions of the model), `XProofs.v`, `XMain.v` etc. lemmas,
`XWitness.v` concrete inputs, `P_X.v` property theorems only: each is closed by `exact`, followed by `Print Assumptions`, with
an `Example` that shows a concrete case which meets hypotheses.  A claim that is natural to expect but false has a theorem with suffix
`_refuted`; then what is true instead is stated exactly by other theorems of the same property.

## Trusted base

1. The kernel of Coq 8.16.1 (`coqc`, `vm_compute` is used in examples, witnesses and in definitions of compiled patterns).
2. No axioms: `Print Assumptions` says "Closed under the global context" for every theorem, see the table at the end
   (regenerated by `tools/mkdesign.sh`).  Axioms of the standard library are not used either.
3. Faithfulness of the transcription of Go code (comments cite the lines) and of behaviour of the Go runtime, Go standard library, operating
   system and Emacs, as described below.
4. English statements in `properties.jsonl` are expressed by theorems; specifications are in `*Spec.v`.

## What is modelled

| code in /repo | model | notes |
|---|---|---|
| pkg/webextensions/frame.go, native_amd64.go | Frame.v | whole file; streams with arbitrary chunks and errors; little endian byte order |
| pkg/webextensions/server.go | Server.v, Stream.v | codecs, mapping of method names; ServeCodec of net/rpc as a transition system, service methods are handlers of Backend.v |
| pkg/webextensions/client.go | Client.v, Stream.v, Tools.v | whole file; rpc.Client of net/rpc as a transition system; order of writing to the pipe by concurrent Close is not modelled |
| pkg/webextensions/manifest.go | Manifest.v | whole file |
| pkg/burl_url/url.go | Url.v | whole file |
| pkg/burl_util/multistring_flag.go | Flags.v | whole file except String |
| pkg/burl_fileutil/escape_printf.go | Flags.v | printf with option q is an oracle with its contract: output is a shell word that gives the argument; existence of such quoting is proved |
| pkg/burl_fileutil/fileutil.go | FileUtil.v over FileSys.v, Path.v | whole file; texts of errors are not modelled |
| pkg/burl_fuzzy/approsearch.go, rank.go | Fuzzy.v | whole files; container/heap and sort are modelled by code/contract; `int` overflow of distances is ignored |
| pkg/burl_links/link_tree.go, node_count.go | LinkTypes.v, LinkTree.v (values), LinkHeap.v (pointers, mutation, explicit queue), ReplyJson.v (MarshalJSON) | counters wrap at 64 bits in LimitChildrenCount |
| pkg/burl_links/link_source.go | Backend.v | whole file |
| pkg/burl_links/extract_org.go, extract_txt.go, urlmatch_txt.go | Patterns.v, Extract.v, Urls.v (ExtractUrls) over Regex.v, RegexParse.v, Scanner.v | texts of errors are not modelled |
| pkg/burl_links/flag.go | Flags.v | options and arguments for link sources |
| pkg/burl_emacs/emacs.go | Emacs.v | texts of output are kept, the slice of the command line is modelled with its storage |
| pkg/burl_rpc/burl_rpc.go | Backend.v, ReplyJson.v, Server.v, Unmarshal.v | structures of queries and replies, decoding of queries |
| pkg/version/version.go | Install.v, Backend.v | constants; GetVersion is an argument |
| cmd/burl_backend/args.go | Flags.v, Install.v | options, AsShellCommand, FixPaths |
| cmd/burl_backend/burl_backend.go | Main.v, Backend.v, Server.v, Flags.v | whole file: modes of the program and exit codes, handlers, lazy reading of notes, method map, serving; content of the log and text of usage are not modelled; a source "-" (stdin, also the stream of requests) is an ordinary one in Backend.v, Stdin.v describes executions in which links are extracted between two requests |
| cmd/burl_backend/install.go | Install.v, Tools.v | processInstallFlags, writeManifest, the wrapper script as a text and what it prints when the executable is missing |
| cmd/burl_tool/burl_tool.go | Tools.v, Output.v | whole file except texts of messages in stderr |
| tools/burl_client/burl_client.go | Tools.v, Print.v | command line, requests, JSON argument of hello (values of interface{}, checkValid, Unmarshal), printing with SetIndent, sequence of actions and exit code; conversion of numbers to float64 and back is an argument, outcomes of exec and of the call are arguments (see Client.v for the call) |
| examples/webextensions_addon/rpc_client.js | Addon.v | whole class JsonRpcClient; ports and dispatching of events by the browser are arbitrary (environment) |
| examples/webextensions_addon/background.js | Menu.v | the whole script; items of the menu belong to the page with scripts, onInstalled is not dispatched when a browser is just started; only first messages on the console |
| examples/webextensions_backend | Sample.v | Sleep; Sqrt except computation of the root; texts of responses |
| examples/webextensions_client | SampleClient.v | the whole program; flows of net/rpc are in Client.v, texts of numbers are arguments |

Go standard library, modelled since the code depends on details of it: bufio.Scanner (Scanner.v), regexp and regexp/syntax (Regex.v,
RegexParse.v: backtracking with priorities, i.e. leftmost-first semantics; only syntax that is used), unicode/utf8, path/filepath for Unix (Path.v), flag (Flags.v, Tools.v), encoding/json encoder
(JsonStr.v, Json.v, Compact.v) and decoder (Stream.v: scanner.go, stream.go; Unmarshal.v: decode.go for structures of requests), net/rpc and net/rpc/jsonrpc server side (Server.v) and client side (Client.v),
container/heap (Fuzzy.v), sync.Once (Emacs.v).

## What is not modelled

* Logging, usage messages, texts of errors (errors are distinguished by the place where they are created where it matters).
* Memory exhaustion, `int` overflow of lengths and of edit distances, speed.
* Texts of errors of json.Unmarshal and the range of float64 (arguments of `go_decoders`).  `Server.v` takes decoding of parameters
  as an argument, theorems about serving hold for any decoder; `go_decoders` of `Unmarshal.v` is the actual one.
* Unicode tables outside of ASCII: letters and lower case are arguments of definitions, theorems hold for all of them.
* Symbolic links, permissions of directories, other processes that modify files (`FileSys.v`).
* Signals; process groups; what Emacs does with its arguments.
* Loops in regular expressions whose body may match the empty string (they do not occur in patterns of the code; `compile` returns None for them).
* Windows and architectures other than amd64.
* Connection of the client and the server (C96-C98): each side reads any beginning of what the other one has written, theorems assume that no response is 4 GiB or longer (`fit`)
  and that the server has not failed to write (no `VFail`).

## Findings

Behaviour that differs from what a user would expect; each is a theorem (exact condition) and usually a `_refuted` theorem.

* C03: after ErrTooLarge bytes of the rejected body may be taken for a header if the caller goes on (net/rpc does not).
* C08: a newline after an object (json.Encoder) may break the session: for a stream that delivers as much as is requested the first message with 512, 1536, 3584... bytes does.
* C12: variants are not symmetric.  C14: invalid bytes of a URL are replaced, so such link is never found.
* C21: a negative countLimit or a huge one crashes the backend.
* C23: schemes are parts of regular expressions, parentheses in them shift groups and URLs are wrong.
* C25, C27, C73: skipped levels of headings give wrong parents, a nil heading and then a crash in the course of serialisation that takes away responses to other requests.
* C28, C29: U+FFFD in a prefix matches any invalid byte; U+017F and U+212A are accepted as Latin letters.
* C32: bracket links with wrong schemes are accepted.  C66: a heading with trailing spaces is not a heading.
* C36-C38: pruning by length in bytes is unsafe; tolerance 0 is case-sensitive; limits for short words have no effect.
* C44: if the content has exactly 4096 bytes, an existing longer file with the same beginning is considered as equal.  C46: execute permission of an existing wrapper is not repaired.
* C47: a name with a slash is accepted.  C54: concurrent captures may be mixed up.
* C59: burl_tool ignores its URL.  C60: burl_client crashes without a command.  C61: the wrapper prints a wrong header for a long path, its message is not JSON if there are control characters in the path.  C119: requests may become notes if notes are read from standard input.
* C75: an empty frame is treated as the end of the stream.  C76: two objects in a frame desynchronize the session.
* C80: the sample add-on rejects zero, false, null and empty results as invalid and keeps such requests in memory.  C81: a late disconnect of an old port fails requests of the new one.
* C84: if a member with an array is repeated then arrays are merged element by element.  C85: a message null is answered as a request with an empty method.
* C90: a message without a number, e.g. that of the wrapper, is a response to the first call; a null result ends the client.
* C95: burl_client starts the backend even if the subcommand is unknown or its arguments are wrong; the backend is not waited for when the call fails.
* C99: burl_tool prints a tree and exits with an error when a file can not be read; files from options are not enough with `-set`.  C100: a manifest names another file if the path of the executable is not valid UTF-8.
* C105: elements of a repeated array are put over elements of a previous one, even over ones hidden by a shorter array in between.
* C106: false returned by the callback of ExtractUrls does not stop it.  C107: URLs with IP addresses are not found in text files.
* C108: a link in a text of an Org file (without brackets around it) is missed if there is just one character after the colon, e.g. `mid:1`.
* C110: the sample client exits with 0 when its calls have failed.
* C112: linkSet misses a link without brackets around it if less than two characters follow the prefix, e.g. `http://a/x` for the prefix `http://a/`.
* C113: the menu of the sample add-on is created by the event of installation only, so there is no menu when a browser is started again.
* C104: with `-force` success is reported when a manifest overwrites the wrapper (or the other manifest) that has just been created in the same file.
* C114: an error of a response is cancelled by a member `error` with null after it, the last members count.

## Testing of theorems against wrong programs

`tools/mutate.py` edits a definition of the model in a scratch copy, rebuilds it and records which theorems fail; results are in `seeded/LOG.jsonl`.
When no theorem failed, statements were strengthened.

## Properties, theorems and their assumptions

| property | theorem | file | Print Assumptions |
|---|---|---|---|
| C01 Framed messages survive any transport chunking | `C01_round_trip` | `P_Frame.v` | Closed under the global context |
| C02 A reader never crosses a frame boundary | `C02_frame_boundary` | `P_Frame.v` | Closed under the global context |
|  | `C02_early_header` | `P_Frame.v` | Closed under the global context |
|  | `C02_declared_size` | `P_Frame.v` | Closed under the global context |
| C03 Malformed or hostile headers expose no payload | `C03_header_errors` | `P_Frame.v` | Closed under the global context |
|  | `C03_no_data` | `P_Frame.v` | Closed under the global context |
|  | `C03_resume_after_too_large_refuted` | `P_Frame.v` | Closed under the global context |
| C04 A message is written as exactly one frame or an error is reported | `C04_history` | `P_Frame.v` | Closed under the global context |
|  | `C04_one_frame` | `P_Frame.v` | Closed under the global context |
|  | `C04_too_long` | `P_Frame.v` | Closed under the global context |
|  | `C04_buffer_empty` | `P_Frame.v` | Closed under the global context |
| C05 A failing output stream never produces a silently truncated frame | `C05_failing_stream` | `P_Frame.v` | Closed under the global context |
| C06 Close releases both directions and tells about lost output | `C06_close` | `P_Frame.v` | Closed under the global context |
| C07 JSON-RPC session of browser-style messages is decoded in full | `C07_session` | `P_Stream.v` | Closed under the global context |
|  | `C07_rfc` | `P_Stream.v` | Closed under the global context |
| C08 Trailing newline after a JSON object may abort a session (finding) | `C08_session` | `P_Stream.v` | Closed under the global context |
|  | `C08_stuck` | `P_Stream.v` | Closed under the global context |
|  | `C08_greedy` | `P_Stream.v` | Closed under the global context |
|  | `C08_short` | `P_Stream.v` | Closed under the global context |
|  | `C08_refuted` | `P_Stream.v` | Closed under the global context |
| C09 Only published method names reach a handler | `C09_calls` | `P_Server.v` | Closed under the global context |
|  | `C09_unknown` | `P_Server.v` | Closed under the global context |
|  | `C09_meaning` | `P_Server.v` | Closed under the global context |
|  | `C09_search` | `P_Server.v` | Closed under the global context |
| C10 Concurrent responses are never mixed | `C10_frames` | `P_Server.v` | Closed under the global context |
| C11 Every accepted request is answered exactly once before shutdown | `C11_answered` | `P_Server.v` | Closed under the global context |
| C12 URL variants are the URL with redundant tail gradually removed | `C12_tail_variants` | `P_Url.v` | Closed under the global context |
|  | `C12_empty_url` | `P_Url.v` | Closed under the global context |
|  | `C12_symmetry_refuted` | `P_Url.v` | Closed under the global context |
| C13 http and https are interchangeable, independently of map iteration order | `C13_scheme_variants` | `P_Url.v` | Closed under the global context |
|  | `C13_map_order_irrelevant` | `P_Url.v` | Closed under the global context |
| C14 Variants of a URL with invalid UTF-8 | `C14_sanitized` | `P_Url.v` | Closed under the global context |
|  | `C14_variants_valid` | `P_Url.v` | Closed under the global context |
|  | `C14_invalid_lost` | `P_Url.v` | Closed under the global context |
| C15 urlMentions totals are exact | `C15_totals_exact` | `P_Link.v` | Closed under the global context |
| C16 urlMentions never returns more links than countLimit | `C16_at_most_limit` | `P_Link.v` | Closed under the global context |
| C17 Nothing is lost if everything fits | `C17_nothing_lost` | `P_Link.v` | Closed under the global context |
| C18 Fair share of the limit among subtrees | `C18_fair_share` | `P_Link.v` | Closed under the global context |
| C19 The reply is a pruned copy: order and headings are preserved | `C19_pruned_copy` | `P_Link.v` | Closed under the global context |
| C20 'filtered' counters are truthful | `C20_filtered_truthful` | `P_Link.v` | Closed under the global context |
| C21 A countLimit that crashes the backend (finding) | `C21_answer_or_crash` | `P_Link.v` | Closed under the global context |
|  | `C21_no_crash` | `P_Link.v` | Closed under the global context |
|  | `C21_no_match` | `P_Link.v` | Closed under the global context |
|  | `C21_negative_crash` | `P_Link.v` | Closed under the global context |
|  | `C21_no_crash_refuted` | `P_Link.v` | Closed under the global context |
| C22 Enumeration of links follows document order and stops on demand | `C22_document_order` | `P_Link.v` | Closed under the global context |
| C23 Line numbers point to the link | `C23_default` | `P_Extract.v` | Closed under the global context |
|  | `C23_org` | `P_Extract.v` | Closed under the global context |
|  | `C23_txt` | `P_Extract.v` | Closed under the global context |
|  | `C23_any_schemes_refuted` | `P_Extract.v` | Closed under the global context |
| C24 Links are reported under their own headings | `C24_outline` | `P_Extract.v` | Closed under the global context |
| C25 Skipped outline levels give wrong or missing parents (finding) | `C25_placed` | `P_Extract.v` | Closed under the global context |
|  | `C25_outline_refuted` | `P_Extract.v` | Closed under the global context |
| C26 Building of the tree from notes never panics | `C26_org` | `P_Extract.v` | Closed under the global context |
|  | `C26_org_order` | `P_Extract.v` | Closed under the global context |
|  | `C26_txt` | `P_Extract.v` | Closed under the global context |
|  | `C26_txt_order` | `P_Extract.v` | Closed under the global context |
| C27 Serialisation of a reply crashes iff it has a nil heading (finding) | `C27_crash` | `P_Reply.v` | Closed under the global context |
|  | `C27_regular` | `P_Reply.v` | Closed under the global context |
|  | `C27_any_notes_refuted` | `P_Reply.v` | Closed under the global context |
| C28 linkSet returns only links with requested prefixes | `C28_file` | `P_LinkSet.v` | Closed under the global context |
|  | `C28_exact_text_refuted` | `P_LinkSet.v` | Closed under the global context |
|  | `C28_reply` | `P_LinkSet.v` | Closed under the global context |
| C29 linkSet validates prefixes | `C29_file` | `P_LinkSet.v` | Closed under the global context |
|  | `C29_reply` | `P_LinkSet.v` | Closed under the global context |
|  | `C29_ascii_refuted` | `P_LinkSet.v` | Closed under the global context |
| C30 linkSet result is a set that does not depend on order | `C30_union` | `P_LinkSet.v` | Closed under the global context |
| C31 Links recognised outside of brackets have a configured scheme | `C31_kinds` | `P_Extract.v` | Closed under the global context |
|  | `C31_scheme` | `P_Extract.v` | Closed under the global context |
| C32 Bracket links with wrong scheme are accepted (finding) | `C32_accepted` | `P_Extract.v` | Closed under the global context |
|  | `C32_scheme_refuted` | `P_Extract.v` | Closed under the global context |
| C33 Fuzzy distance is the optimal approximate substring distance | `C33_distance_optimal` | `P_Fuzzy.v` | Closed under the global context |
|  | `C33_distance_unique` | `P_Fuzzy.v` | Closed under the global context |
|  | `C33_panics` | `P_Fuzzy.v` | Closed under the global context |
| C34 Search returns the best matches, best first | `C34_best_first` | `P_Fuzzy.v` | Closed under the global context |
|  | `C34_best_plain` | `P_Fuzzy.v` | Closed under the global context |
|  | `C34_best_unique` | `P_Fuzzy.v` | Closed under the global context |
|  | `C34_query_words` | `P_Fuzzy.v` | Closed under the global context |
|  | `C34_bad_arguments` | `P_Fuzzy.v` | Closed under the global context |
| C35 Search results respect tolerance | `C35_within_tolerance` | `P_Fuzzy.v` | Closed under the global context |
|  | `C35_plain_text` | `P_Fuzzy.v` | Closed under the global context |
| C36 Length based pruning is safe for ASCII and unsafe for other text (finding) | `C36_prune_safe` | `P_Fuzzy.v` | Closed under the global context |
|  | `C36_prune_unsafe_refuted` | `P_Fuzzy.v` | Closed under the global context |
| C37 Zero tolerance is case sensitive while positive tolerance is not (finding) | `C37_zero_tolerance` | `P_Fuzzy.v` | Closed under the global context |
|  | `C37_case_ignored` | `P_Fuzzy.v` | Closed under the global context |
|  | `C37_monotone_refuted` | `P_Fuzzy.v` | Closed under the global context |
|  | `C37_order_refuted` | `P_Fuzzy.v` | Closed under the global context |
| C38 Limits for short query words have no effect (finding) | `C38_limits_unused` | `P_Fuzzy.v` | Closed under the global context |
|  | `C38_word_limit_refuted` | `P_Fuzzy.v` | Closed under the global context |
| C39 Repeated options: append to defaults, or reset and replace | `C39_values` | `P_Flags.v` | Closed under the global context |
|  | `C39_rejected` | `P_Flags.v` | Closed under the global context |
| C40 Saved option values restore the same configuration | `C40_restored` | `P_Flags.v` | Closed under the global context |
| C41 The wrapper script starts the backend with the same configuration | `C41_wrapper_configuration` | `P_Flags.v` | Closed under the global context |
|  | `C41_total` | `P_Flags.v` | Closed under the global context |
|  | `C41_quoting_exists` | `P_Flags.v` | Closed under the global context |
| C42 Generated files are replaced atomically | `C42_atomic` | `P_File.v` | Closed under the global context |
|  | `C42_no_temporary_file` | `P_File.v` | Closed under the global context |
|  | `C42_stdout` | `P_File.v` | Closed under the global context |
| C43 Without -force an existing different file is never modified | `C43_not_modified` | `P_File.v` | Closed under the global context |
| C44 Reported success means that the file has requested content | `C44_success` | `P_File.v` | Closed under the global context |
|  | `C44_error` | `P_File.v` | Closed under the global context |
|  | `C44_always_complete_refuted` | `P_File.v` | Closed under the global context |
| C45 Writing is idempotent | `C45_idempotent` | `P_File.v` | Closed under the global context |
|  | `C45_empty` | `P_File.v` | Closed under the global context |
|  | `C45_page` | `P_File.v` | Closed under the global context |
| C46 Execute permission of an existing wrapper is not repaired (finding) | `C46_mode_kept` | `P_File.v` | Closed under the global context |
|  | `C46_executable_refuted` | `P_File.v` | Closed under the global context |
| C47 File name resolution obeys its contract | `C47_contract` | `P_Install.v` | Closed under the global context |
|  | `C47_complete` | `P_Install.v` | Closed under the global context |
|  | `C47_absolute` | `P_Install.v` | Closed under the global context |
|  | `C47_name_and_extension` | `P_Install.v` | Closed under the global context |
|  | `C47_any_name_refuted` | `P_Install.v` | Closed under the global context |
| C48 Manifest validation accepts exactly valid manifests | `C48_exactly_valid` | `P_Install.v` | Closed under the global context |
| C49 Installer produces only consistent manifests | `C49_files` | `P_Install.v` | Closed under the global context |
| C50 Installer refuses ambiguous requests before touching files | `C50_nothing_requested` | `P_Install.v` | Closed under the global context |
|  | `C50_refused` | `P_Install.v` | Closed under the global context |
|  | `C50_not_over_itself` | `P_Install.v` | Closed under the global context |
| C51 Only configured files can be opened in the editor | `C51_visit` | `P_Backend.v` | Closed under the global context |
|  | `C51_prohibited` | `P_Backend.v` | Closed under the global context |
| C52 Capture can pass only org-protocol URI to the editor | `C52_capture` | `P_Backend.v` | Closed under the global context |
|  | `C52_not_option` | `P_Backend.v` | Closed under the global context |
| C53 Editor command lines are exact when requests are handled one at a time | `C53_exact` | `P_Backend.v` | Closed under the global context |
|  | `C53_lisp` | `P_BadRequest.v` | Closed under the global context |
| C54 Concurrent captures may be mixed up (finding) | `C54_race_refuted` | `P_Backend.v` | Closed under the global context |
|  | `C54_no_spare_capacity` | `P_Backend.v` | Closed under the global context |
| C55 Protocol negotiation | `C55_hello` | `P_Backend.v` | Closed under the global context |
| C56 Notes are read once | `C56_snapshot` | `P_Backend.v` | Closed under the global context |
|  | `C56_link_set` | `P_Backend.v` | Closed under the global context |
| C57 urlMentions end to end | `C57_mentions` | `P_Backend.v` | Closed under the global context |
| C58 Requests do not affect each other through the shared tree | `C58_requests_independent` | `P_Link.v` | Closed under the global context |
|  | `C58_answer_unique` | `P_Link.v` | Closed under the global context |
|  | `C58_answer_is_new` | `P_Link.v` | Closed under the global context |
| C59 burl_tool ignores the URL argument (finding) | `C59_ignored` | `P_Tools.v` | Closed under the global context |
|  | `C59_all` | `P_Tools.v` | Closed under the global context |
|  | `C59_refuted` | `P_Tools.v` | Closed under the global context |
| C60 Test client splits its command line at the first -- | `C60_start` | `P_Tools.v` | Closed under the global context |
|  | `C60_panic` | `P_Tools.v` | Closed under the global context |
|  | `C60_refuted` | `P_Tools.v` | Closed under the global context |
| C61 Error message of the wrapper is a valid frame only if it is short | `C61_client` | `P_BadStart.v` | Closed under the global context |
|  | `C61_frame` | `P_Tools.v` | Closed under the global context |
|  | `C61_json` | `P_Tools.v` | Closed under the global context |
|  | `C61_refuted` | `P_Tools.v` | Closed under the global context |
|  | `C61_long` | `P_Wrapper.v` | Closed under the global context |
|  | `C61_text` | `P_Wrapper.v` | Closed under the global context |
| C62 Scanning of long lines | `C62_lines` | `P_Extract.v` | Closed under the global context |
|  | `C62_org` | `P_Extract.v` | Closed under the global context |
|  | `C62_txt` | `P_Extract.v` | Closed under the global context |
| C63 Plain text extraction terminates and reports clean words | `C63_links` | `P_Extract.v` | Closed under the global context |
| C64 Reading of several note files | `C64_files` | `P_Backend.v` | Closed under the global context |
| C65 Races can not put anything else into editor command lines | `C65_race_bounded` | `P_Backend.v` | Closed under the global context |
| C66 Headings with trailing white space are not headings (finding) | `C66_not_heading` | `P_Extract.v` | Closed under the global context |
| C67 Bracket links with configured scheme are never missed | `C67_reported` | `P_Extract.v` | Closed under the global context |
| C68 Links with requested prefixes in brackets are never missed by linkSet | `C68_bracket` | `P_LinkSet.v` | Closed under the global context |
| C69 Every mention can be visited: file, line and headings of a reply are right | `C69_found` | `P_Reply.v` | Closed under the global context |
| C70 Results are unambiguous JSON documents with exactly the announced members | `C70_document` | `P_Reply.v` | Closed under the global context |
|  | `C70_always` | `P_Reply.v` | Closed under the global context |
| C71 A link in notes is mentioned | `C71_complete` | `P_Reply.v` | Closed under the global context |
| C72 The backend always comes to an end and never hangs | `C72_terminates` | `P_Server.v` | Closed under the global context |
|  | `C72_stuck` | `P_Server.v` | Closed under the global context |
|  | `C72_finish` | `P_Server.v` | Closed under the global context |
| C73 One urlMentions request may take away responses to other ones (finding) | `C73_cause` | `P_Server.v` | Closed under the global context |
|  | `C73_refuted` | `P_Server.v` | Closed under the global context |
| C74 Requests of the test client are objects for published methods | `C74_request` | `P_Tools.v` | Closed under the global context |
|  | `C74_served` | `P_Tools.v` | Closed under the global context |
| C75 A truncated message does not swallow bytes of the next frame | `C75_truncated` | `P_Stream.v` | Closed under the global context |
|  | `C75_blank` | `P_Stream.v` | Closed under the global context |
| C76 Two objects in one frame desynchronize the session (finding) | `C76_two` | `P_Stream.v` | Closed under the global context |
| C77 Only well-formed JSON values made of bytes of frame bodies are decoded, and any session ends | `C77_values` | `P_Stream.v` | Closed under the global context |
|  | `C77_bytes` | `P_Stream.v` | Closed under the global context |
|  | `C77_total` | `P_Stream.v` | Closed under the global context |
| C78 Every call of the client in a browser is settled at most once, exactly when and as it is told by a response, a failure or a disconnect | `C78_once` | `P_Addon.v` | Closed under the global context |
|  | `C78_each` | `P_Addon.v` | Closed under the global context |
|  | `C78_exact` | `P_Addon.v` | Closed under the global context |
|  | `C78_posted` | `P_Addon.v` | Closed under the global context |
|  | `C78_same_refuted` | `P_Addon.v` | Closed under the global context |
|  | `C78_backend` | `P_Addon.v` | Closed under the global context |
| C79 The client in a browser connects exactly when there is no usable port | `C79_call` | `P_Addon.v` | Closed under the global context |
|  | `C79_usable` | `P_Addon.v` | Closed under the global context |
|  | `C79_disconnect` | `P_Addon.v` | Closed under the global context |
| C80 The client in a browser rejects results that are zero, false, null or empty and never forgets such requests | `C80_falsy` | `P_Addon.v` | Closed under the global context |
|  | `C80_result_refuted` | `P_Addon.v` | Closed under the global context |
|  | `C80_kept` | `P_Addon.v` | Closed under the global context |
|  | `C80_kept_refuted` | `P_Addon.v` | Closed under the global context |
|  | `C80_sleep` | `P_Addon.v` | Closed under the global context |
| C81 Disconnect of a port fails only requests posted to it unless a failure is noticed earlier than the event | `C81_own` | `P_Addon.v` | Closed under the global context |
|  | `C81_own_refuted` | `P_Addon.v` | Closed under the global context |
| C82 The sample backend sleeps for the requested time and reports negative arguments of the square root | `C82_sleep` | `P_Addon.v` | Closed under the global context |
|  | `C82_sqrt` | `P_Addon.v` | Closed under the global context |
| C83 Every JSON text is read as its value | `C83_document` | `P_Unmarshal.v` | Closed under the global context |
|  | `C83_total` | `P_Unmarshal.v` | Closed under the global context |
| C84 Parameters are decoded in accordance with their meaning | `C84_params` | `P_Unmarshal.v` | Closed under the global context |
|  | `C84_empty` | `P_Unmarshal.v` | Closed under the global context |
|  | `C84_named` | `P_Unmarshal.v` | Closed under the global context |
|  | `C84_refuted` | `P_Unmarshal.v` | Closed under the global context |
| C85 Messages become requests with their methods, parameters and identifiers | `C85_request` | `P_Unmarshal.v` | Closed under the global context |
|  | `C85_other` | `P_Unmarshal.v` | Closed under the global context |
|  | `C85_stream` | `P_Unmarshal.v` | Closed under the global context |
|  | `C85_meaning` | `P_Unmarshal.v` | Closed under the global context |
|  | `C85_id` | `P_Unmarshal.v` | Closed under the global context |
| C86 The backend understands requests of burl_client exactly | `C86_client` | `P_Unmarshal.v` | Closed under the global context |
| C87 Each call gets exactly its own response | `C87_once` | `P_Client.v` | Closed under the global context |
|  | `C87_numbers` | `P_Client.v` | Closed under the global context |
|  | `C87_reason` | `P_Client.v` | Closed under the global context |
|  | `C87_answered` | `P_Client.v` | Closed under the global context |
| C88 Requests of the client are never interleaved and are not sent after Close | `C88_whole` | `P_Client.v` | Closed under the global context |
|  | `C88_closed` | `P_Client.v` | Closed under the global context |
|  | `C88_ended` | `P_Client.v` | Closed under the global context |
|  | `C88_close` | `P_Client.v` | Closed under the global context |
| C89 Calls of the client are not lost | `C89_progress` | `P_Client.v` | Closed under the global context |
|  | `C89_bounded` | `P_Client.v` | Closed under the global context |
|  | `C89_finish` | `P_Client.v` | Closed under the global context |
| C90 Responses are decoded as they are meant | `C90_response` | `P_Client.v` | Closed under the global context |
|  | `C90_other` | `P_Client.v` | Closed under the global context |
|  | `C90_stream` | `P_Client.v` | Closed under the global context |
|  | `C90_refuted` | `P_Client.v` | Closed under the global context |
|  | `C90_wrapper` | `P_Client.v` | Closed under the global context |
| C91 Client and server understand each other | `C91_reply` | `P_Client.v` | Closed under the global context |
|  | `C91_round` | `P_Client.v` | Closed under the global context |
|  | `C91_value` | `P_Client.v` | Closed under the global context |
| C92 The backend is started with connected streams and is waited for | `C92_start` | `P_Client.v` | Closed under the global context |
|  | `C92_ok` | `P_Client.v` | Closed under the global context |
|  | `C92_usage` | `P_Client.v` | Closed under the global context |
|  | `C92_close` | `P_Client.v` | Closed under the global context |
| C93 Replies are printed as the same JSON values | `C93_print` | `P_Print.v` | Closed under the global context |
|  | `C93_same` | `P_Print.v` | Closed under the global context |
|  | `C93_again` | `P_Print.v` | Closed under the global context |
| C94 The query of hello is understood as it is written | `C94_hello` | `P_Print.v` | Closed under the global context |
|  | `C94_refused` | `P_Print.v` | Closed under the global context |
|  | `C94_range` | `P_Print.v` | Closed under the global context |
|  | `C94_default` | `P_Print.v` | Closed under the global context |
| C95 Actions of burl_client | `C95_order` | `P_Print.v` | Closed under the global context |
|  | `C95_start` | `P_Print.v` | Closed under the global context |
|  | `C95_request` | `P_Print.v` | Closed under the global context |
|  | `C95_print` | `P_Print.v` | Closed under the global context |
|  | `C95_exit` | `P_Print.v` | Closed under the global context |
|  | `C95_wait` | `P_Print.v` | Closed under the global context |
|  | `C95_crash` | `P_Print.v` | Closed under the global context |
|  | `C95_refuted` | `P_Print.v` | Closed under the global context |
|  | `C95_wait_refuted` | `P_Print.v` | Closed under the global context |
| C96 A call gets the reply to its own query | `C96_call` | `P_End.v` | Closed under the global context |
|  | `C96_client` | `P_End.v` | Closed under the global context |
|  | `C96_depth` | `P_End.v` | Closed under the global context |
| C97 What is printed by burl_client is the reply of the backend to the query | `C97_printed` | `P_End.v` | Closed under the global context |
|  | `C97_query` | `P_End.v` | Closed under the global context |
| C98 Every request gets exactly one response | `C98_all` | `P_End.v` | Closed under the global context |
| C99 Output and exit codes of burl_tool | `C99_tree` | `P_Output.v` | Closed under the global context |
|  | `C99_set` | `P_Output.v` | Closed under the global context |
|  | `C99_other` | `P_Output.v` | Closed under the global context |
|  | `C99_success_refuted` | `P_Output.v` | Closed under the global context |
|  | `C99_files_refuted` | `P_Output.v` | Closed under the global context |
| C100 Manifests are JSON documents with expected members | `C100_manifest` | `P_Output.v` | Closed under the global context |
|  | `C100_installed` | `P_Output.v` | Closed under the global context |
|  | `C100_path` | `P_Output.v` | Closed under the global context |
|  | `C100_path_refuted` | `P_Output.v` | Closed under the global context |
| C101 Meaning of the command line of the backend | `C101_options` | `P_Main.v` | Closed under the global context |
|  | `C101_refused` | `P_Main.v` | Closed under the global context |
|  | `C101_unique` | `P_Main.v` | Closed under the global context |
| C102 Modes of the backend | `C102_usage` | `P_Main.v` | Closed under the global context |
|  | `C102_modes` | `P_Main.v` | Closed under the global context |
|  | `C102_serves` | `P_Main.v` | Closed under the global context |
|  | `C102_codes` | `P_Main.v` | Closed under the global context |
| C103 The wrapper starts the backend with options of the installer | `C103_wrapper` | `P_Main.v` | Closed under the global context |
| C104 Success of installation | `C104_success` | `P_Main.v` | Closed under the global context |
|  | `C104_plain` | `P_Main.v` | Closed under the global context |
|  | `C104_overwritten_refuted` | `P_Main.v` | Closed under the global context |
| C105 Repeated members of requests | `C105_params` | `P_Repeat.v` | Closed under the global context |
|  | `C105_packet` | `P_Repeat.v` | Closed under the global context |
| C106 URLs passed to a callback | `C106_calls` | `P_Urls.v` | Closed under the global context |
|  | `C106_urls` | `P_Urls.v` | Closed under the global context |
|  | `C106_links` | `P_Urls.v` | Closed under the global context |
|  | `C106_stop_refuted` | `P_Urls.v` | Closed under the global context |
| C107 URLs in words of text files are found | `C107_link` | `P_Found.v` | Closed under the global context |
|  | `C107_call` | `P_Found.v` | Closed under the global context |
|  | `C107_address_refuted` | `P_Found.v` | Closed under the global context |
| C108 Links inside of lines of Org files are found | `C108_found` | `P_OrgFound.v` | Closed under the global context |
|  | `C108_short_refuted` | `P_OrgFound.v` | Closed under the global context |
| C109 The server does not accumulate requests | `C109_remembered` | `P_ServerMemory.v` | Closed under the global context |
|  | `C109_forgotten` | `P_ServerMemory.v` | Closed under the global context |
| C110 The sample client reports both calls and always waits for its backend | `C110_run` | `P_SampleClient.v` | Closed under the global context |
|  | `C110_exit` | `P_SampleClient.v` | Closed under the global context |
|  | `C110_failed` | `P_SampleClient.v` | Closed under the global context |
|  | `C110_usage` | `P_SampleClient.v` | Closed under the global context |
|  | `C110_options` | `P_SampleClient.v` | Closed under the global context |
|  | `C110_dialog` | `P_SampleClient.v` | Closed under the global context |
|  | `C110_reply` | `P_SampleClient.v` | Closed under the global context |
|  | `C110_numeric` | `P_SampleClient.v` | Closed under the global context |
|  | `C110_refuted` | `P_SampleClient.v` | Closed under the global context |
| C111 Links inside of lines of notes are mentioned | `C111_org` | `P_Mentions.v` | Closed under the global context |
|  | `C111_text` | `P_Mentions.v` | Closed under the global context |
| C112 Links inside of lines are found by their prefixes | `C112_file` | `P_SetFound.v` | Closed under the global context |
|  | `C112_reply` | `P_SetFound.v` | Closed under the global context |
|  | `C112_short_refuted` | `P_SetFound.v` | Closed under the global context |
| C113 The menu of the sample add-on | `C113_items` | `P_Menu.v` | Closed under the global context |
|  | `C113_click` | `P_Menu.v` | Closed under the global context |
|  | `C113_silent` | `P_Menu.v` | Closed under the global context |
|  | `C113_client` | `P_Menu.v` | Closed under the global context |
|  | `C113_console` | `P_Menu.v` | Closed under the global context |
|  | `C113_negative` | `P_Menu.v` | Closed under the global context |
|  | `C113_root` | `P_Menu.v` | Closed under the global context |
|  | `C113_sleep` | `P_Menu.v` | Closed under the global context |
|  | `C113_restart_refuted` | `P_Menu.v` | Closed under the global context |
| C114 Repeated members of responses | `C114_response` | `P_Merge.v` | Closed under the global context |
| C115 A line of an Org file has exactly the links that are seen there | `C115_line` | `P_OrgExact.v` | Closed under the global context |
|  | `C115_file` | `P_OrgExact.v` | Closed under the global context |
|  | `C115_none` | `P_OrgExact.v` | Closed under the global context |
| C116 Links found by prefixes are exactly those that are seen in files | `C116_file` | `P_SetExact.v` | Closed under the global context |
|  | `C116_reply` | `P_SetExact.v` | Closed under the global context |
| C117 URLs of text files are exactly those that are seen there | `C117_file` | `P_TextExact.v` | Closed under the global context |
|  | `C117_calls` | `P_TextExact.v` | Closed under the global context |
| C118 A message that is not a request ends reading at once | `C118_bad` | `P_BadRequest.v` | Closed under the global context |
| C119 Notes from standard input swallow requests (finding) | `C119_swallowed` | `P_Stdin.v` | Closed under the global context |
|  | `C119_links` | `P_Stdin.v` | Closed under the global context |
|  | `C119_refuted` | `P_Stdin.v` | Closed under the global context |
| C120 Garbage in a frame is reported at once | `C120_syntax` | `P_BadStart.v` | Closed under the global context |
| C121 A syntax error is found at the first byte that cannot continue an object | `C121_syntax` | `P_Viable.v` | Closed under the global context |
|  | `C121_exact` | `P_Viable.v` | Closed under the global context |
| C122 Messages that are not objects | `C122_null` | `P_NullMessage.v` | Closed under the global context |
|  | `C122_scalar` | `P_NullMessage.v` | Closed under the global context |
|  | `C122_array` | `P_NullMessage.v` | Closed under the global context |
|  | `C122_client` | `P_NullMessage.v` | Closed under the global context |
|  | `C122_answer` | `P_NullAnswer.v` | Closed under the global context |
