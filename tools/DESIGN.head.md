# Formal model of maxnikulin/burl in Rocq (Coq 8.16.1)

The Go code in `/repo` is read as text and transcribed to total computable Gallina functions; properties from
`properties.jsonl` are theorems about these functions.  `MANIFEST.json` maps properties to theorems.

## Method

* One Gallina definition per Go function (or per loop); every definition cites lines of the Go file and says what is simplified.
* Go `string`/`[]byte` is `list ascii` (`str`), any list is a possible byte string; a rune is an `N`.  UTF-8 as in Go.
* Go `int` is `Z` or `nat`.  Where overflow matters there is an explicit 64-bit wrap (`wrap`, limits of counters), 32-bit sizes of
  frames are reduced modulo 2^32.
* An error is a value (`result`), a panic is an explicit outcome (`Panic`, `HPanic`, `LPanic`...), nil is an `option` or a constructor.
* Loops are structural recursion, folds or machines with fuel; running out of fuel is a separate outcome that is proved
  unreachable (theorems either give the amount of fuel or say that the outcome is a different constructor).
* The environment is an explicit argument: chunks that are delivered by streams, results of commands, contents of files and failures of reading,
  failures of system calls, the order of iteration over Go maps, Unicode tables outside of ASCII, the schedule of goroutines.
* Goroutines are threads of a labelled transition system, crash points are prefixes of runs of system calls.
* Pointers and slices with shared storage are modelled where sharing matters: `LinkHeap.v` (tree of links), `Emacs.v` (command line),
  `Extract.v` (queue of parents); elsewhere comments say why a value is enough.

Files: `X.v` model, `XSpec.v` independent specification (small; no functions of the model), `XProofs.v`, `XMain.v` etc. lemmas,
`XWitness.v` concrete inputs, `P_X.v` property theorems only: each is closed by `exact`, followed by `Print Assumptions`, with
an `Example` that shows a concrete case which meets hypotheses.  A claim that is natural to expect but false has a theorem with suffix
`_refuted`; then what is true instead is stated exactly by other theorems of the same property.

## Trusted base

1. The kernel of Coq 8.16.1 (`coqc`, `vm_compute` is used in examples, witnesses and in definitions of compiled patterns).
2. No axioms: `Print Assumptions` says "Closed under the global context" for every theorem, see the table at the end
   (regenerated by `tools/mkdesign.sh`).  Axioms of the standard library are not used either.
3. Faithfulness of the transcription of Go code (comments cite the lines) and of behaviour of the Go runtime, Go standard library, operating
   system and Emacs, as described below.
4. English statements in `properties.jsonl` are expressed by theorems; specifications are in `*Spec.v`.

## What is modelled

| code in /repo | model | notes |
|---|---|---|
| pkg/webextensions/frame.go, native_amd64.go | Frame.v | whole file; streams with arbitrary chunks and errors; little endian byte order |
| pkg/webextensions/server.go | Server.v, Stream.v | codecs, mapping of method names; ServeCodec of net/rpc as a transition system, service methods are handlers of Backend.v |
| pkg/webextensions/client.go | Client.v, Stream.v, Tools.v | whole file; rpc.Client of net/rpc as a transition system; order of writing to the pipe by concurrent Close is not modelled |
| pkg/webextensions/manifest.go | Manifest.v | whole file |
| pkg/burl_url/url.go | Url.v | whole file |
| pkg/burl_util/multistring_flag.go | Flags.v | whole file except String |
| pkg/burl_fileutil/escape_printf.go | Flags.v | printf with option q is an oracle with its contract: output is a shell word that gives the argument; existence of such quoting is proved |
| pkg/burl_fileutil/fileutil.go | FileUtil.v over FileSys.v, Path.v | whole file; texts of errors are not modelled |
| pkg/burl_fuzzy/approsearch.go, rank.go | Fuzzy.v | whole files; container/heap and sort are modelled by code/contract; `int` overflow of distances is ignored |
| pkg/burl_links/link_tree.go, node_count.go | LinkTypes.v, LinkTree.v (values), LinkHeap.v (pointers, mutation, explicit queue), ReplyJson.v (MarshalJSON) | counters wrap at 64 bits in LimitChildrenCount |
| pkg/burl_links/link_source.go | Backend.v | whole file |
| pkg/burl_links/extract_org.go, extract_txt.go, urlmatch_txt.go | Patterns.v, Extract.v, Urls.v (ExtractUrls) over Regex.v, RegexParse.v, Scanner.v | texts of errors are not modelled |
| pkg/burl_links/flag.go | Flags.v | options and arguments for link sources |
| pkg/burl_emacs/emacs.go | Emacs.v | texts of output are kept, the slice of the command line is modelled with its storage |
| pkg/burl_rpc/burl_rpc.go | Backend.v, ReplyJson.v, Server.v, Unmarshal.v | structures of queries and replies, decoding of queries |
| pkg/version/version.go | Install.v, Backend.v | constants; GetVersion is an argument |
| cmd/burl_backend/args.go | Flags.v, Install.v | options, AsShellCommand, FixPaths |
| cmd/burl_backend/burl_backend.go | Main.v, Backend.v, Server.v, Flags.v | whole file: modes of the program and exit codes, handlers, lazy reading of notes, method map, serving; content of the log and text of usage are not modelled; a source "-" (stdin, also the stream of requests) is an ordinary one in Backend.v, Stdin.v describes executions in which links are extracted between two requests |
| cmd/burl_backend/install.go | Install.v, Tools.v | processInstallFlags, writeManifest, the wrapper script as a text and what it prints when the executable is missing |
| cmd/burl_tool/burl_tool.go | Tools.v, Output.v | whole file except texts of messages in stderr |
| tools/burl_client/burl_client.go | Tools.v, Print.v | command line, requests, JSON argument of hello (values of interface{}, checkValid, Unmarshal), printing with SetIndent, sequence of actions and exit code; conversion of numbers to float64 and back is an argument, outcomes of exec and of the call are arguments (see Client.v for the call) |
| examples/webextensions_addon/rpc_client.js | Addon.v | whole class JsonRpcClient; ports and dispatching of events by the browser are arbitrary (environment) |
| examples/webextensions_addon/background.js | Menu.v | the whole script; items of the menu belong to the page with scripts, onInstalled is not dispatched when a browser is just started; only first messages on the console |
| examples/webextensions_backend | Sample.v | Sleep; Sqrt except computation of the root; texts of responses |
| examples/webextensions_client | SampleClient.v | the whole program; flows of net/rpc are in Client.v, texts of numbers are arguments |

Go standard library, modelled since the code depends on details of it: bufio.Scanner (Scanner.v), regexp and regexp/syntax (Regex.v,
RegexParse.v: backtracking with priorities, i.e. leftmost-first semantics; only syntax that is used), unicode/utf8, path/filepath for Unix (Path.v), flag (Flags.v, Tools.v), encoding/json encoder
(JsonStr.v, Json.v, Compact.v) and decoder (Stream.v: scanner.go, stream.go; Unmarshal.v: decode.go for structures of requests), net/rpc and net/rpc/jsonrpc server side (Server.v) and client side (Client.v),
container/heap (Fuzzy.v), sync.Once (Emacs.v).

## What is not modelled

* Logging, usage messages, texts of errors (errors are distinguished by the place where they are created where it matters).
* Memory exhaustion, `int` overflow of lengths and of edit distances, speed.
* Texts of errors of json.Unmarshal and the range of float64 (arguments of `go_decoders`).  `Server.v` takes decoding of parameters
  as an argument, theorems about serving hold for any decoder; `go_decoders` of `Unmarshal.v` is the actual one.
* Unicode tables outside of ASCII: letters and lower case are arguments of definitions, theorems hold for all of them.
* Symbolic links, permissions of directories, other processes that modify files (`FileSys.v`).
* Signals; process groups; what Emacs does with its arguments.
* Loops in regular expressions whose body may match the empty string (they do not occur in patterns of the code; `compile` returns None for them).
* Windows and architectures other than amd64.
* Connection of the client and the server (C96-C98): each side reads any beginning of what the other one has written, theorems assume that no response is 4 GiB or longer (`fit`)
  and that the server has not failed to write (no `VFail`).

## Findings

Behaviour that differs from what a user would expect; each is a theorem (exact condition) and usually a `_refuted` theorem.

* C03: after ErrTooLarge bytes of the rejected body may be taken for a header if the caller goes on (net/rpc does not).
* C08: a newline after an object (json.Encoder) may break the session: for a stream that delivers as much as is requested the first message with 512, 1536, 3584... bytes does.
* C12: variants are not symmetric.  C14: invalid bytes of a URL are replaced, so such link is never found.
* C21: a negative countLimit or a huge one crashes the backend.
* C23: schemes are parts of regular expressions, parentheses in them shift groups and URLs are wrong.
* C25, C27, C73: skipped levels of headings give wrong parents, a nil heading and then a crash in the course of serialisation that takes away responses to other requests.
* C28, C29: U+FFFD in a prefix matches any invalid byte; U+017F and U+212A are accepted as Latin letters.
* C32: bracket links with wrong schemes are accepted.  C66: a heading with trailing spaces is not a heading.
* C36-C38: pruning by length in bytes is unsafe; tolerance 0 is case-sensitive; limits for short words have no effect.
* C44: if the content has exactly 4096 bytes, an existing longer file with the same beginning is considered as equal.  C46: execute permission of an existing wrapper is not repaired.
* C47: a name with a slash is accepted.  C54: concurrent captures may be mixed up.
* C59: burl_tool ignores its URL.  C60: burl_client crashes without a command.  C61: the wrapper prints a wrong header for a long path, its message is not JSON if there are control characters in the path.  C119: requests may become notes if notes are read from standard input.
* C75: an empty frame is treated as the end of the stream.  C76: two objects in a frame desynchronize the session.
* C80: the sample add-on rejects zero, false, null and empty results as invalid and keeps such requests in memory.  C81: a late disconnect of an old port fails requests of the new one.
* C84: if a member with an array is repeated then arrays are merged element by element.  C85: a message null is answered as a request with an empty method.
* C90: a message without a number, e.g. that of the wrapper, is a response to the first call; a null result ends the client.
* C95: burl_client starts the backend even if the subcommand is unknown or its arguments are wrong; the backend is not waited for when the call fails.
* C99: burl_tool prints a tree and exits with an error when a file can not be read; files from options are not enough with `-set`.  C100: a manifest names another file if the path of the executable is not valid UTF-8.
* C105: elements of a repeated array are put over elements of a previous one, even over ones hidden by a shorter array in between.
* C106: false returned by the callback of ExtractUrls does not stop it.  C107: URLs with IP addresses are not found in text files.
* C108: a link in a text of an Org file (without brackets around it) is missed if there is just one character after the colon, e.g. `mid:1`.
* C110: the sample client exits with 0 when its calls have failed.
* C112: linkSet misses a link without brackets around it if less than two characters follow the prefix, e.g. `http://a/x` for the prefix `http://a/`.
* C113: the menu of the sample add-on is created by the event of installation only, so there is no menu when a browser is started again.
* C104: with `-force` success is reported when a manifest overwrites the wrapper (or the other manifest) that has just been created in the same file.
* C114: an error of a response is cancelled by a member `error` with null after it, the last members count.

## Testing of theorems against wrong programs

`tools/mutate.py` edits a definition of the model in a scratch copy, rebuilds it and records which theorems fail; results are in `seeded/LOG.jsonl`.
When no theorem failed, statements were strengthened.

## Properties, theorems and their assumptions

