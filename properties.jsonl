{"id": "C01", "title": "Framed messages survive any transport chunking", "statement": "If a peer writes any sequence of messages, each at most 1 GiB, each by one WriteFrame call, and the other end repeatedly calls ReadHeader and then Read until the end of the frame, it obtains exactly the same sequence of payloads in the same order, then a clean EOF; however the byte stream is cut into pieces by the underlying reader and whatever buffer sizes are used for Read.", "quantifier": "every list of byte strings, every behaviour of the underlying reader with respect to short reads, every sequence of read buffer sizes", "why_tests_cant": "Pipes split data at arbitrary places; tests see only the chunkings that happened to occur.", "anchors": ["pkg/webextensions/frame.go:FrameLimitedReader.ReadHeader", "pkg/webextensions/frame.go:FrameBufferedWriter.WriteFrame"]}
{"id": "C02", "title": "A reader never crosses a frame boundary", "statement": "Reads after a successful ReadHeader deliver only bytes of that frame, never a byte of the following header or frame. ReadHeader called while part of the body is unread fails with ErrReadBody and consumes nothing from the stream.", "quantifier": "every reachable reader state, stream content, chunking and interleaving of ReadHeader/Read calls", "why_tests_cant": "The claim is an invariant of every call history.", "anchors": ["pkg/webextensions/frame.go:FrameLimitedReader.ReadHeader"]}
{"id": "C03", "title": "Malformed or hostile headers expose no payload", "statement": "An empty stream yields EOF, a stream cut inside the 4 byte header yields an unexpected EOF, a declared size above 1 GiB yields TooLargeError; in each of these cases a following Read returns no data from the payload before another header has been accepted.", "quantifier": "every byte stream and chunking", "why_tests_cant": "All 2^32 header values and all cut points.", "anchors": ["pkg/webextensions/frame.go:FrameLimitedReader.ReadHeader", "pkg/webextensions/frame.go:MaxInSize"]}
{"id": "C04", "title": "A message is written as exactly one frame or an error is reported", "statement": "When the buffered message is shorter than 2^32 bytes and the output stream accepts everything, WriteFrame emits precisely the 4 byte little-endian length followed by the payload, once. When the message is 2^32 bytes or longer, so that the length wraps, success is never reported. In every case, error or not, the buffer is empty afterwards so data of one message never leaks into the next one.", "quantifier": "every payload of every length (including those above 32 bits) and every previous history of the writer", "why_tests_cant": "Messages larger than 4 GiB and all error histories are not testable.", "anchors": ["pkg/webextensions/frame.go:FrameBufferedWriter.WriteFrame", "pkg/webextensions/frame.go:SizeMismatchError"]}
{"id": "C05", "title": "A failing output stream never produces a silently truncated frame", "statement": "If the output stream fails after accepting any number of bytes, what has been emitted is a prefix of the frame, and WriteFrame reports success if and only if the whole frame has been accepted.", "quantifier": "every payload and every point at which the output stream starts to fail", "why_tests_cant": "Every byte offset is a failure point.", "anchors": ["pkg/webextensions/frame.go:FrameBufferedWriter.WriteFrame"]}
{"id": "C06", "title": "Close releases both directions and tells about lost output", "statement": "Close always closes both the input and the output stream even when one of them fails, reports the reader error in preference to the writer error, reports ErrOutBufferNotEmpty if and only if both closes succeed but unsent data was pending, and leaves no pending output.", "quantifier": "every combination of close errors and pending output", "why_tests_cant": "State and fault space.", "anchors": ["pkg/webextensions/frame.go:SplitFrameReadWriteCloser.Close"]}
{"id": "C07", "title": "JSON-RPC session of browser-style messages is decoded in full", "statement": "For every sequence of frames each holding exactly one JSON object and no trailing bytes (what browsers send; strings may even have invalid UTF-8 or lone surrogates, nesting is at most 10000), the server codec decodes exactly these objects one after another and finds the end of stream after the last one, for every chunking of the input stream and every decoder buffer size.", "quantifier": "every list of JSON objects, every chunking of the stream", "why_tests_cant": "Depends on relative position of chunk and frame boundaries.", "anchors": ["pkg/webextensions/server.go:serverCodec.ReadRequestHeader", "pkg/webextensions/frame.go:FrameLimitedReader.ReadHeader"]}
{"id": "C08", "title": "Trailing newline after a JSON object may abort a session (finding)", "statement": "Go json.Encoder used by both the backend and the bundled Go client ends each message with a newline. The next message of such a session is decoded if and only if the newline was already fetched by the JSON decoder together with the object; otherwise the next ReadHeader fails with ErrReadBody and the session is over. There is a message (JSON text of exactly 512 bytes) for which it happens even if the stream always delivers as much as is requested.", "quantifier": "every message and chunking; existential witness for the failure", "why_tests_cant": "The failure depends on the exact length of message and on scheduling.", "anchors": ["pkg/webextensions/client.go:clientCodec.ReadResponseHeader", "pkg/webextensions/server.go:serverCodec.ReadRequestHeader", "pkg/webextensions/frame.go:ErrReadBody"]}
{"id": "C09", "title": "Only published method names reach a handler", "statement": "For every method name in a request, the handler that runs is the one listed for this name in the published method table of the backend, and for every other name no handler runs and the client gets an error response. In particular fuzzy search can not be called through the native messaging interface, and neither can any method by its Go name.", "quantifier": "every method name (arbitrary string)", "why_tests_cant": "Infinite set of names; the lookup composes renaming, splitting at the last dot and two table lookups.", "anchors": ["pkg/webextensions/server.go:MappedServerCodec.ReadRequestHeader", "cmd/burl_backend/burl_backend.go:mainWithGracefulShutdown"]}
{"id": "C10", "title": "Concurrent responses are never mixed", "statement": "Requests are handled concurrently. For every interleaving of handlers, at every moment the output is a sequence of complete frames followed by at most a prefix of one frame; each frame is the response of exactly one request and carries the id of that request.", "quantifier": "every schedule of reader, handlers and response writers, every set of requests", "why_tests_cant": "Interleavings can not be enumerated by tests.", "anchors": ["pkg/webextensions/server.go:serverCodec.WriteResponse", "pkg/webextensions/frame.go:FrameBufferedWriter.WriteFrame"]}
{"id": "C11", "title": "Every accepted request is answered exactly once before shutdown", "statement": "When the input ends, the backend closes its output only after each accepted request has got exactly one response.", "quantifier": "every schedule and every list of requests", "why_tests_cant": "Property of all interleavings and of termination.", "anchors": ["pkg/webextensions/server.go:serverCodec", "cmd/burl_backend/burl_backend.go:mainWithGracefulShutdown"]}
{"id": "C12", "title": "URL variants are the URL with redundant tail gradually removed", "statement": "For a non-empty URL in valid UTF-8, the list of variants contains the URL itself, and a string is a variant with unchanged scheme if and only if it is obtained from the URL by dropping some number of trailing characters, all of which belong to the tail of the form slashes, optional '?', ampersands, optional '#'. The empty URL has no variants.", "quantifier": "every URL", "why_tests_cant": "Arbitrary strings, arbitrary tails.", "anchors": ["pkg/burl_url/url.go:RedundantTailVariants"]}
{"id": "C13", "title": "http and https are interchangeable, independently of map iteration order", "statement": "For a URL starting with http: or https: the variants are those of the URL and those of the URL with the other scheme and nothing else, for other URLs there are no variants with changed scheme; the result does not depend on the iteration order of the Go map used inside.", "quantifier": "every URL and both map iteration orders", "why_tests_cant": "Go map iteration order is randomised.", "anchors": ["pkg/burl_url/url.go:UrlVariants"]}
{"id": "C14", "title": "Variants of a URL with invalid UTF-8", "statement": "If the URL is not valid UTF-8, each invalid byte is replaced by U+FFFD in the variants, so the URL itself is not in the list; every variant is valid UTF-8 when the scheme is kept.", "quantifier": "every byte string", "why_tests_cant": "Every malformed byte sequence.", "anchors": ["pkg/burl_url/url.go:RedundantTailVariants"]}
{"id": "C15", "title": "urlMentions totals are exact", "statement": "In the result of urlMentions every 'total' is equal to the number of links of the corresponding subtree of notes whose URL is one of the variants; subtrees without matches are absent.", "quantifier": "every link tree and every filter", "why_tests_cant": "Arbitrary trees.", "anchors": ["pkg/burl_links/node_count.go:CountDescendants", "pkg/burl_links/link_tree.go:TreeLeafNode.Clone", "pkg/burl_links/link_tree.go:TreeChildrenNode.Clone"]}
{"id": "C16", "title": "urlMentions never returns more links than countLimit", "statement": "For every non-negative countLimit such that countLimit times the number of matches fits into 63 bits, the reply contains at most countLimit links, at least one if there is a match and countLimit is positive.", "quantifier": "every link tree, every filter, every limit", "why_tests_cant": "Integer proportional division with rounding on every tree shape.", "anchors": ["pkg/burl_links/link_tree.go:TreeChildrenNode.LimitChildrenCount", "pkg/burl_links/link_tree.go:TreeLeafNode.LimitChildrenCount", "pkg/burl_links/node_count.go:FilterChildrenCount"]}
{"id": "C17", "title": "Nothing is lost if everything fits", "statement": "If total number of matches does not exceed countLimit, then every matching URL is in the reply under its own heading; only repetitions of the same URL in the body of the same heading are dropped.", "quantifier": "every link tree, every filter, every limit", "why_tests_cant": "Rounding errors might drop an item only on rare distributions.", "anchors": ["pkg/burl_links/link_tree.go:TreeChildrenNode.LimitChildrenCount", "pkg/burl_links/node_count.go:FilterChildrenCount"]}
{"id": "C18", "title": "Fair share of the limit among subtrees", "statement": "When the limit has to be divided, the subtrees that are kept are those with the largest number of matches (earlier first for equal numbers), each of them receives at least one slot and the slots sum up to the limit.", "quantifier": "every list of subtree counts and every limit", "why_tests_cant": "Arithmetic on arbitrary counts.", "anchors": ["pkg/burl_links/link_tree.go:TreeChildrenNode.LimitChildrenCount"]}
{"id": "C19", "title": "The reply is a pruned copy: order and headings are preserved", "statement": "The tree in the reply is obtained from the tree of notes only by deleting links and subtrees; no node or link is added, moved, reordered or changed.", "quantifier": "every link tree, filter and limit", "why_tests_cant": "Arbitrary trees.", "anchors": ["pkg/burl_links/node_count.go:CountDescendants", "pkg/burl_links/node_count.go:FilterChildrenCount"]}
{"id": "C20", "title": "'filtered' counters are truthful", "statement": "In the reply every 'filtered' value is the number of links actually present below the node, and it does not exceed 'total'.", "quantifier": "every link tree, filter and limit", "why_tests_cant": "Arbitrary trees.", "anchors": ["pkg/burl_links/node_count.go:FilterChildrenCount"]}
{"id": "C21", "title": "A countLimit that crashes the backend (finding)", "statement": "urlMentions terminates the process by a panic if and only if the division of the limit reaches a slice or allocation with a negative bound; it happens for every negative countLimit if there is at least one match, and for huge limits due to integer overflow. For limits in the range from 0 to 2^63 divided by the number of matches it never happens.", "quantifier": "every limit that is a 64 bit integer and every tree", "why_tests_cant": "64 bit range of limits.", "anchors": ["pkg/burl_links/link_tree.go:TreeChildrenNode.LimitChildrenCount", "cmd/burl_backend/burl_backend.go:BurlBackend.UrlMentions"]}
{"id": "C22", "title": "Enumeration of links follows document order and stops on demand", "statement": "The callback is called for the links of the tree in document order, each exactly once, up to and including the first link for which it returns false.", "quantifier": "every tree and every callback", "why_tests_cant": "Arbitrary trees; explicit stack instead of recursion.", "anchors": ["pkg/burl_links/link_tree.go:ForEachLink", "pkg/burl_links/node_count.go:DepthFirstQueue"]}
{"id": "C23", "title": "Line numbers point to the link", "statement": "For every link extracted from an Org or a plain text file, the line with the reported number contains the URL text.", "quantifier": "every file content", "why_tests_cant": "Arbitrary files.", "anchors": ["pkg/burl_links/extract_org.go:OrgLinkSource.Extract", "pkg/burl_links/extract_txt.go:TxtLinkSource.Extract"]}
{"id": "C24", "title": "Links are reported under their own headings", "statement": "In every Org file whose outline does not skip levels and is at most 10 levels deep, each link is placed under exactly the chain of headings it belongs to in the outline, with their line numbers and titles, and links before the first heading belong to the file itself.", "quantifier": "every Org file with non-skipping outline", "why_tests_cant": "Arbitrary sequence of headings.", "anchors": ["pkg/burl_links/extract_org.go:OrgLinkSource.Extract"]}
{"id": "C25", "title": "Skipped outline levels give wrong or missing parents (finding)", "statement": "If a heading skips levels, the missing ancestors are taken from earlier unrelated headings left in the array (when there were any at that level) or are nil. There is a file where a link is reported under a heading it does not belong to.", "quantifier": "existential witness over files plus characterisation of the array content", "why_tests_cant": "Needs a particular history of headings.", "anchors": ["pkg/burl_links/extract_org.go:OrgLinkSource.Extract"]}
{"id": "C26", "title": "Building of the tree from notes never panics", "statement": "For every Org or text file content extraction of links completes with a tree or an error, it never panics in spite of unchecked type assertion and slice expressions, and the tree is finite and has links in document order.", "quantifier": "every file content", "why_tests_cant": "Absence of panic on every input.", "anchors": ["pkg/burl_links/extract_org.go:OrgLinkSource.Extract", "pkg/burl_links/link_tree.go:TreeChildrenNode.AddLink"]}
{"id": "C27", "title": "Serialisation of a reply crashes iff it has a nil heading (finding)", "statement": "JSON serialisation of a urlMentions reply panics if and only if the reply has a node created for a skipped outline level (nil heading); it follows that notes with skipped levels may terminate the backend while notes with regular outline never do.", "quantifier": "every reply tree", "why_tests_cant": "All trees; depends on history of headings.", "anchors": ["pkg/burl_links/node_count.go:reflectFlatten", "pkg/burl_links/node_count.go:LimitCountNode.MarshalJSON", "pkg/burl_links/extract_org.go:OrgLinkSource.Extract"]}
{"id": "C28", "title": "linkSet returns only links with requested prefixes", "statement": "Every URL returned by linkSet starts with one of the requested prefixes (with a colon appended to the prefix that has none), and literally occurs in one of the configured files.", "quantifier": "every file content, every list of prefixes", "why_tests_cant": "Privacy property over all files and prefixes including regexp metacharacters.", "anchors": ["pkg/burl_links/extract_org.go:OrgLinkSource.ExtractSet", "pkg/burl_links/extract_txt.go:TxtLinkSource.ExtractSet", "pkg/burl_links/extract_org.go:MakeLinkSetBase"]}
{"id": "C29", "title": "linkSet validates prefixes", "statement": "linkSet fails without returning links if it is disabled, if more than 16 prefixes are passed, or (when at least one file is configured) if the list of prefixes is empty or any prefix is not a URI scheme optionally followed by a colon and text without newlines.", "quantifier": "every list of prefixes", "why_tests_cant": "Arbitrary strings.", "anchors": ["pkg/burl_links/extract_org.go:reSetPrefix", "pkg/burl_links/extract_org.go:MakeLinkSetBase", "cmd/burl_backend/burl_backend.go:BurlBackend.LinkSet"]}
{"id": "C30", "title": "linkSet result is a set that does not depend on order", "statement": "The returned list has no duplicates, it is the union of links found in all files, for every iteration order of the Go map.", "quantifier": "all files, all map iteration orders", "why_tests_cant": "Map iteration order is random.", "anchors": ["pkg/burl_links/link_source.go:ExtractLinkSetFromFileGroup", "cmd/burl_backend/burl_backend.go:LinkSetReal"]}
{"id": "C31", "title": "Links recognised outside of brackets have a configured scheme", "statement": "Every plain or angle link extracted from an Org file starts with one of configured schemes followed by a colon.", "quantifier": "every file and every list of schemes", "why_tests_cant": "Arbitrary texts.", "anchors": ["pkg/burl_links/extract_org.go:MakeLinkReStr", "pkg/burl_links/extract_org.go:OrgLinkMatchIsUrl"]}
{"id": "C32", "title": "Bracket links with wrong scheme are accepted (finding)", "statement": "The check of bracket links is anchored for the first scheme only and requires a colon for the last one only: a bracket link is accepted if and only if it starts with the first scheme, or contains any of the middle schemes, or contains the last scheme followed by a colon. A witness is a file: link that mentions http in its name.", "quantifier": "every bracket link target, every list of two or more literal schemes", "why_tests_cant": "Regexp operator precedence.", "anchors": ["pkg/burl_links/extract_org.go:reScheme", "pkg/burl_links/extract_org.go:UpdateRe"]}
{"id": "C33", "title": "Fuzzy distance is the optimal approximate substring distance", "statement": "For non-empty pattern and word the reported distance is the least number of insertions, deletions, substitutions and transpositions of neighbour characters (each character takes part in at most one of them) that turns the pattern into some substring of the word (capped by 32767).", "quantifier": "every pattern and word", "why_tests_cant": "Optimality is a claim about all edit scripts.", "anchors": ["pkg/burl_fuzzy/approsearch.go:EditorDistanceRunes"]}
{"id": "C34", "title": "Search returns the best matches, best first", "statement": "Search returns exactly the first limit elements of the list of all accepted links sorted by distance, then length, then text.", "quantifier": "every list of candidate links and every limit", "why_tests_cant": "Heap manipulations on arbitrary sequences.", "anchors": ["pkg/burl_fuzzy/rank.go:WeightedStringHeap.Add", "pkg/burl_fuzzy/rank.go:ProcessUrlSource", "cmd/burl_backend/burl_backend.go:BurlBackend.Search"]}
{"id": "C35", "title": "Search results respect tolerance", "statement": "Every link in the search result has total distance over query words not greater than the tolerance; without an upper-case letter in query or link and with ASCII text a link is accepted if and only if the sum of distances of the words does not exceed the tolerance.", "quantifier": "every query, link and tolerance", "why_tests_cant": "Early termination and pruning on all inputs.", "anchors": ["pkg/burl_fuzzy/rank.go:QueryDistance", "pkg/burl_fuzzy/rank.go:GetSubqueryDistance"]}
{"id": "C36", "title": "Length based pruning is safe for ASCII and unsafe for other text (finding)", "statement": "A link whose distance is within the tolerance is never rejected due to its length if the texts are ASCII; there is a query with non-ASCII letters that is rejected although its distance is within the tolerance.", "quantifier": "every query and link; existential witness", "why_tests_cant": "Byte and rune lengths differ.", "anchors": ["pkg/burl_fuzzy/rank.go:GetSubqueryDistance"]}
{"id": "C37", "title": "Zero tolerance is case sensitive while positive tolerance is not (finding)", "statement": "When no tolerance remains, a query word is accepted if and only if it is literally a substring of the link, while with positive tolerance letter case is ignored; so increasing the tolerance by one may turn rejection into distance zero, and acceptance depends on the order of query words.", "quantifier": "every query and link; existential witnesses", "why_tests_cant": "Depends on remaining tolerance.", "anchors": ["pkg/burl_fuzzy/rank.go:GetSubqueryDistance", "pkg/burl_fuzzy/rank.go:QueryDistance"]}
{"id": "C38", "title": "Limits for short query words have no effect (finding)", "statement": "The result of search does not depend on per-word limits derived from length of words.", "quantifier": "every query and every assignment of limits", "why_tests_cant": "Independence of a value.", "anchors": ["pkg/burl_fuzzy/rank.go:MakeSubqueryLimit", "pkg/burl_fuzzy/rank.go:QueryDistance"]}
{"id": "C39", "title": "Repeated options: append to defaults, or reset and replace", "statement": "For every sequence of values of a repeatable option: values are appended to the defaults; an empty value discards the defaults if it precedes any value and is rejected with no effect on values after values have been appended to the defaults; nothing else changes the list.", "quantifier": "every sequence of option values and every list of defaults", "why_tests_cant": "All histories.", "anchors": ["pkg/burl_util/multistring_flag.go:MultiStringFlag.Set"]}
{"id": "C40", "title": "Saved option values restore the same configuration", "statement": "Feeding the saved modifications of a repeatable option to a fresh option with the same defaults gives the same values, for every history of the original option; the restored option is considered modified exactly when the original is.", "quantifier": "every accepted history of option values", "why_tests_cant": "All histories.", "anchors": ["pkg/burl_util/multistring_flag.go:MultiStringFlag.ModifiedValues"]}
{"id": "C41", "title": "The wrapper script starts the backend with the same configuration", "statement": "Parsing of the command line recorded in the wrapper gives the same log file, link sources with their types and order, schemes, emacsclient command and arguments, and the linkSet switch as the configuration from which the wrapper was created, for every configuration, provided that shell unquoting inverts quoting.", "quantifier": "every configuration", "why_tests_cant": "Arbitrary strings, lists and option histories.", "anchors": ["cmd/burl_backend/args.go:BurlBackendArgs.AsShellCommand", "cmd/burl_backend/args.go:AddBackendFlags"]}
{"id": "C42", "title": "Generated files are replaced atomically", "statement": "Whenever the process is interrupted while it writes a wrapper or a manifest, the destination either has its previous content and permissions or the complete new content with the requested permissions, and no other file except a fresh temporary one is touched.", "quantifier": "every initial file system, content and crash point", "why_tests_cant": "Crash points.", "anchors": ["pkg/burl_fileutil/fileutil.go:WriteFile"]}
{"id": "C43", "title": "Without -force an existing different file is never modified", "statement": "If the force flag is not set and the destination exists with content different from the requested, writing reports an error and the file system is unchanged.", "quantifier": "every file system state and content", "why_tests_cant": "All contents.", "anchors": ["pkg/burl_fileutil/fileutil.go:WriteFile"]}
{"id": "C44", "title": "Reported success means that the file has requested content", "statement": "If writing reports success then the destination has exactly the requested content; the only exception is content of exactly 4096 bytes written with force over a longer file that starts with the same bytes, when success is reported and nothing is written.", "quantifier": "every file system state and content", "why_tests_cant": "The boundary of the comparison buffer.", "anchors": ["pkg/burl_fileutil/fileutil.go:WriteFile"]}
{"id": "C45", "title": "Writing is idempotent", "statement": "After successful writing, repeating it with the same arguments succeeds and changes nothing provided that length of content is neither 0 nor, without force, 4096.", "quantifier": "every file system state and content", "why_tests_cant": "The boundary of the comparison buffer; empty files.", "anchors": ["pkg/burl_fileutil/fileutil.go:WriteFile"]}
{"id": "C46", "title": "Execute permission of an existing wrapper is not repaired (finding)", "statement": "If a file with the requested content already exists and its owner has read permission, its mode is left as is even if the requested mode has execute bits; so success does not mean that the wrapper is executable.", "quantifier": "every mode of the existing file", "why_tests_cant": "All permission combinations.", "anchors": ["pkg/burl_fileutil/fileutil.go:WriteFile"]}
{"id": "C47", "title": "File name resolution obeys its contract", "statement": "For a path argument: '-' is returned as is; for an existing directory the name (or the default name) with extension is appended; otherwise the directory of the file must exist, the extension must match and, when a name is requested, the base name must be equal to it. On success the path is absolute and, when an extension is required, it consists of the returned name and an extension equal to the required one up to letter case.", "quantifier": "every path, options and file system state", "why_tests_cant": "Arbitrary strings and file systems.", "anchors": ["pkg/burl_fileutil/fileutil.go:AsAbsFileName"]}
{"id": "C48", "title": "Manifest validation accepts exactly valid manifests", "statement": "Init succeeds if and only if exactly one of two allow-lists is non-empty, the name is not empty, the executable path is absolute and the manifest is for stdout or its file name is the name with .json extension (in any letter case); on success only the type field is changed and it becomes stdio; on failure nothing is changed.", "quantifier": "every manifest", "why_tests_cant": "Arbitrary fields.", "anchors": ["pkg/webextensions/manifest.go:Manifest.Init"]}
{"id": "C49", "title": "Installer produces only consistent manifests", "statement": "Every manifest written by the installer has the name equal to base name of its file, absolute path to the wrapper if it was requested or to the backend otherwise, exactly one allow-list, and Chrome origins of the form chrome-extension://ID/.", "quantifier": "every combination of installer options and file systems", "why_tests_cant": "Option and file system combinations.", "anchors": ["cmd/burl_backend/install.go:processInstallFlags", "cmd/burl_backend/install.go:writeManifest"]}
{"id": "C50", "title": "Installer refuses ambiguous requests before touching files", "statement": "If no output is requested, the installer does nothing; requests that would print more than one file to stdout, print the wrapper while a manifest is requested, silently drop backend options because no wrapper is requested, or overwrite the backend by its wrapper with custom options are refused with no file written.", "quantifier": "every combination of options", "why_tests_cant": "Option combinations.", "anchors": ["cmd/burl_backend/install.go:processInstallFlags", "cmd/burl_backend/args.go:BurlBackendArgs.Customized"]}
{"id": "C51", "title": "Only configured files can be opened in the editor", "statement": "For every visit request, if the path is not literally one of configured file names then no external command is executed and an error is returned; otherwise the commands executed are at most frame creation and a single command with this path and the requested positive line number.", "quantifier": "every request and configuration", "why_tests_cant": "Security property for arbitrary requests.", "anchors": ["cmd/burl_backend/burl_backend.go:BurlBackend.Visit", "pkg/burl_emacs/emacs.go:VisitFile"]}
{"id": "C52", "title": "Capture can pass only org-protocol URI to the editor", "statement": "For every capture request the only request-controlled command line argument is the URI, it is passed as a single argument, only if it begins with 'org-protocol:' and the format is org-protocol and the request has no error, so it can not be interpreted as an option. Success is reported if and only if all commands succeed; a request with the error field executes nothing and reports preview.", "quantifier": "every request and every outcome of commands", "why_tests_cant": "Security property for arbitrary requests.", "anchors": ["cmd/burl_backend/burl_backend.go:BurlBackend.Capture", "pkg/burl_emacs/emacs.go:OrgProtocol"]}
{"id": "C53", "title": "Editor command lines are exact when requests are handled one at a time", "statement": "Whatever commands were executed before, each editor command has exactly user arguments, standard arguments and its own arguments in this order, in spite of the shared slice storage.", "quantifier": "every history of commands and every list of user arguments", "why_tests_cant": "All histories; slice aliasing.", "anchors": ["pkg/burl_emacs/emacs.go:execEmacs"]}
{"id": "C54", "title": "Concurrent captures may be mixed up (finding)", "statement": "Since argument lists of concurrent commands are assembled in the same storage when there is spare capacity, there is an interleaving of two captures such that one of URIs is passed to the editor twice and another one is lost. It can not happen when the number of user arguments leaves no spare capacity.", "quantifier": "existential witness over schedules; universal claim for full capacity", "why_tests_cant": "Data race.", "anchors": ["pkg/burl_emacs/emacs.go:execEmacs", "pkg/burl_emacs/emacs.go:UserArgs"]}
{"id": "C55", "title": "Protocol negotiation", "statement": "hello succeeds if and only if the first offered org-protocol format has a non-empty version, and then the same format and version are returned; visit and urlMentions are advertised if and only if there are configured files, linkSet if in addition it is not disabled, and an advertised linkSet is not rejected as disabled.", "quantifier": "every list of offered formats and configuration", "why_tests_cant": "Arbitrary lists.", "anchors": ["cmd/burl_backend/burl_backend.go:BurlBackend.Hello", "cmd/burl_backend/burl_backend.go:BurlBackend.LinkSet"]}
{"id": "C56", "title": "Notes are read once", "statement": "All urlMentions and search requests of a process, in any order and with any changes of files in between, are answered from the same snapshot of files taken at the first of them; if that first reading failed, all of them fail with the same error. linkSet always reads current files.", "quantifier": "every history of requests and file changes", "why_tests_cant": "All histories.", "anchors": ["cmd/burl_backend/burl_backend.go:NewBurlBackendPtr", "cmd/burl_backend/burl_backend.go:BurlBackend.UrlMentions"]}
{"id": "C57", "title": "urlMentions end to end", "statement": "The reply contains only links from configured notes whose URL is a variant of one of the query URLs; the total of the reply is the number of all such links; a query without non-empty URLs is an error.", "quantifier": "every query and every content of notes", "why_tests_cant": "Composition of all parts.", "anchors": ["cmd/burl_backend/burl_backend.go:BurlBackend.UrlMentions"]}
{"id": "C58", "title": "Requests do not affect each other through the shared tree", "statement": "Answering of urlMentions allocates a separate tree and never modifies the tree of notes shared by all requests, so an answer does not depend on requests handled before or concurrently.", "quantifier": "every shared tree and every sequence of requests", "why_tests_cant": "Aliasing of pointers in all trees.", "anchors": ["pkg/burl_links/node_count.go:CountDescendants", "pkg/burl_links/node_count.go:FilterChildrenCount", "pkg/burl_links/link_tree.go:TreeChildrenNode.Clone"]}
{"id": "C59", "title": "burl_tool ignores the URL argument (finding)", "statement": "Output of burl_tool for a URL and files does not depend on the URL: a part of the tree of all links in these files is printed, at most 8 of them and all of them (up to repetitions of a URL in a body) if there are at most 8.", "quantifier": "every URL and files", "why_tests_cant": "Independence of an argument.", "anchors": ["cmd/burl_tool/burl_tool.go:mainWithGracefulShutdown"]}
{"id": "C60", "title": "Test client splits its command line at the first --", "statement": "Arguments before the first -- are the backend command, those after it are the query; without -- or without a query an error is reported. The only exception is a command line whose first argument left after option parsing is --, which is a crash.", "quantifier": "every list of arguments", "why_tests_cant": "Arbitrary lists.", "anchors": ["tools/burl_client/burl_client.go:mainWithGracefulShutdown"]}
{"id": "C61", "title": "Error message of the wrapper is a valid frame only if it is short", "statement": "When the backend binary is missing, the bytes printed by the wrapper form a native messaging frame if and only if the shell counts the length in bytes and the message has at most 255 bytes. For every path without control characters the message is a JSON object whose only member is the error with the path in which backslashes and quotes are replaced. A message of 256-4095 bytes is announced with a size that is allowed and greater than the number of bytes that are printed; a client that is written in Go gets a syntax error. For every sequence of bytes as the path, the message is an object that is accepted by Go if and only if there are no control characters in the path besides newlines at its end.", "quantifier": "every path, every way of counting characters by the shell", "why_tests_cant": "All lengths.", "anchors": ["cmd/burl_backend/install.go:processInstallFlags"]}
{"id": "C62", "title": "Scanning of long lines", "statement": "A file in which every line is shorter than 64 KiB is split at newlines with optional carriage return removed, each line numbered from 1; a file with a longer line gives an error and only the links of the preceding lines.", "quantifier": "every file content", "why_tests_cant": "Arbitrary sizes.", "anchors": ["pkg/burl_links/extract_org.go:OrgLinkSource.Extract", "pkg/burl_links/extract_txt.go:TxtLinkSource.Extract"]}
{"id": "C63", "title": "Plain text extraction terminates and reports clean words", "statement": "For every text file each reported URL is non-empty, has no white space and is not a bare scheme, a bare domain suffix, a relative path or a path.", "quantifier": "every file content", "why_tests_cant": "Arbitrary text.", "anchors": ["pkg/burl_links/extract_txt.go:TxtLinkSource.Extract", "pkg/burl_links/urlmatch_txt.go:MatchIsUrl"]}
{"id": "C64", "title": "Reading of several note files", "statement": "Links of files are grouped in the order of configuration, files without links are absent, reading stops at the first file that fails and its error is reported.", "quantifier": "every list of files", "why_tests_cant": "Arbitrary lists and failures.", "anchors": ["pkg/burl_links/link_source.go:ExtractLinksFromFileGroup", "pkg/burl_links/link_source.go:ExtractLinksFromFile"]}
{"id": "C65", "title": "Races can not put anything else into editor command lines", "statement": "For any number of concurrent requests and any schedule, each editor command consists of the program, user arguments and standard arguments, which are always intact, followed by as many arguments as the request needs, each of them being the argument at the same position of a command of one of current requests; so only fixed expressions, line numbers, configured paths and org-protocol URIs are passed.", "quantifier": "every set of requests, configuration, capacity and interleaving", "why_tests_cant": "All interleavings of writes to shared storage.", "anchors": ["pkg/burl_emacs/emacs.go:execEmacs", "pkg/burl_emacs/emacs.go:UserArgs"]}
{"id": "C66", "title": "Headings with trailing white space are not headings (finding)", "statement": "A line that looks like an Org heading with a non-empty title followed by a space, a tab, a carriage return or a form feed is not recognised as a heading, links below it are reported under the previous heading. A heading with an empty title is recognised in spite of any number of trailing blanks.", "quantifier": "all numbers of stars, blanks, titles", "why_tests_cant": "Tests try a few headings; the statement is for every title and any white space.", "anchors": ["pkg/burl_links/extract_org.go:28", "pkg/burl_links/extract_org.go:138-155"]}
{"id": "C67", "title": "Bracket links with configured scheme are never missed", "statement": "In every Org file, for every line that is a bracket link with or without a description (texts without brackets) and with a configured scheme followed by a colon, exactly one link is reported for the line, its URL and description are exactly the texts in the brackets.", "quantifier": "all files, all lines, all lists of schemes, all URLs and descriptions without square brackets", "why_tests_cant": "The regular expression has nested repetitions and alternatives, a few samples do not show that it can not stop earlier or capture other text.", "anchors": ["pkg/burl_links/extract_org.go:36", "pkg/burl_links/extract_org.go:112-171"]}
{"id": "C68", "title": "Links with requested prefixes in brackets are never missed by linkSet", "statement": "In every Org file, for every line that is a bracket link with or without a description (texts without square brackets) whose target starts with one of the requested prefixes, the target is in the set of links obtained from the file.", "quantifier": "all files, all lines, all accepted lists of prefixes, all targets and descriptions without square brackets", "why_tests_cant": "Prefixes are compiled into an alternation of a regular expression, they may contain metacharacters and may be prefixes of each other.", "anchors": ["pkg/burl_links/extract_org.go:194-231", "pkg/burl_links/extract_org.go:173-191"]}
{"id": "C69", "title": "Every mention can be visited: file, line and headings of a reply are right", "statement": "For every run of the backend with its real link extractors and every urlMentions reply: every link of the reply is one of the wanted URLs, it is placed under exactly one file node whose path is one of configured files, the file as it was read contains the URL in the line with the reported number, links from plain text files have no headings, and links from Org files without skipped outline levels are under exactly the headings that enclose the line.", "quantifier": "every set of files with any contents, every query, every schedule of concurrent requests", "why_tests_cant": "Composition of scanning, matching, building of a tree, pruning; all contents and schedules.", "anchors": ["cmd/burl_backend/burl_backend.go:BurlBackend.UrlMentions", "pkg/burl_links/link_source.go:ExtractLinksFromFileGroup", "pkg/burl_links/extract_org.go:OrgLinkSource.Extract"]}
{"id": "C70", "title": "Results are unambiguous JSON documents with exactly the announced members", "statement": "The text of every result (hello, capture, urlMentions, visit, search, linkSet) is a JSON document by RFC 8259 and every value that a conforming parser may obtain from it has the members announced for the result and no other ones, strings are the same up to replacement of bytes that are not UTF-8 by U+FFFD; a group with a single file is shown as the file. Serialisation of anything else than urlMentions results never fails.", "quantifier": "every result, any bytes in texts", "why_tests_cant": "Arbitrary bytes in URLs, descriptions and headings; arbitrary trees.", "anchors": ["pkg/burl_links/node_count.go:LimitCountNode.MarshalJSON", "pkg/burl_links/link_tree.go:Link.MarshalJSON", "pkg/burl_rpc/burl_rpc.go:HelloResponse"]}
{"id": "C71", "title": "A link in notes is mentioned", "statement": "If an Org file that was read has a line that is a link in brackets with a configured scheme and its URL is wanted by a urlMentions query, then the reply has a link with this URL under the node of this file provided that total count of matches does not exceed the limit of the query.", "quantifier": "every set of files, every line number, URL and description, every query, every schedule", "why_tests_cant": "End-to-end completeness over all contents of files.", "anchors": ["cmd/burl_backend/burl_backend.go:BurlBackend.UrlMentions", "pkg/burl_links/extract_org.go:OrgLinkSource.Extract", "pkg/burl_links/node_count.go:FilterChildrenCount"]}
{"id": "C72", "title": "The backend always comes to an end and never hangs", "statement": "There are no infinite executions of the server for a finite list of requests. An execution can not be continued if and only if the connection has just been closed or there was a panic; so goroutines never wait for each other forever, and any execution can be continued till its end.", "quantifier": "every list of requests, every schedule, every result of commands and reading of files, every failure of writing", "why_tests_cant": "Absence of deadlocks and termination of all interleavings.", "anchors": ["pkg/webextensions/server.go:serverCodec.WriteResponse", "cmd/burl_backend/burl_backend.go:mainWithGracefulShutdown", "cmd/burl_backend/burl_backend.go:BurlBackend.initializer"]}
{"id": "C73", "title": "One urlMentions request may take away responses to other ones (finding)", "statement": "A panic while a response is encoded happens only for a urlMentions reply with a link below a heading whose level is skipped in an Org file. When it happens, other requests that were accepted stay without responses: the claim that every accepted valid request is answered is refuted by an execution where a hello request is lost.", "quantifier": "every execution for the cause; existential witness for lost responses", "why_tests_cant": "Depends on contents of notes and on scheduling of goroutines.", "anchors": ["pkg/burl_links/node_count.go:LimitCountNode.MarshalJSON", "pkg/webextensions/server.go:serverCodec.WriteResponse", "cmd/burl_backend/burl_backend.go:BurlBackend.UrlMentions"]}
{"id": "C74", "title": "Requests of the test client are objects for published methods", "statement": "For commands mentions, set, capture and visit of the test client and any arguments of them, the request is a JSON object with members method, params (an array of exactly one query that holds the arguments) and id, and the method is one of those published by the backend.", "quantifier": "every list of arguments, every text", "why_tests_cant": "Arbitrary texts of arguments have to be escaped correctly.", "anchors": ["tools/burl_client/burl_client.go:callUrlMentions", "tools/burl_client/burl_client.go:callVisit", "tools/burl_client/burl_client.go:callCapture", "tools/burl_client/burl_client.go:callSet", "pkg/webextensions/client.go:clientCodec.WriteRequest"]}
{"id": "C75", "title": "A truncated message does not swallow bytes of the next frame", "statement": "If a frame holds only a beginning of a JSON object then all messages in preceding frames are decoded and the session fails with the unexpected end of input, whatever follows in the stream: bytes of the next frames are never considered as a continuation of the object. If the frame is empty or blank, then the error is EOF, the one used for the end of the stream (finding: the backend treats such message as a regular request to quit).", "quantifier": "every list of messages, every beginning of an object, every rest of the stream, every chunking", "why_tests_cant": "All positions of truncation combined with all chunkings of the stream.", "anchors": ["pkg/webextensions/server.go:serverCodec.ReadRequestHeader", "pkg/webextensions/frame.go:FrameLimitedReader.ReadHeader"]}
{"id": "C76", "title": "Two objects in one frame desynchronize the session (finding)", "statement": "If there are two JSON objects in a frame, then the message from the following frame is never decoded: the session fails with ErrReadBody either right after the first object or after the second one that has been considered as the content of the following frame; the outcome depends on chunks delivered by the stream only.", "quantifier": "every pair of objects, every rest of the stream, every chunking", "why_tests_cant": "The outcome depends on boundaries of chunks.", "anchors": ["pkg/webextensions/server.go:serverCodec.ReadRequestHeader", "pkg/webextensions/frame.go:FrameLimitedReader.ReadHeader", "pkg/webextensions/frame.go:ErrReadBody"]}
{"id": "C77", "title": "Only well-formed JSON values made of bytes of frame bodies are decoded, and any session ends", "statement": "Whatever bytes are sent to the backend (or to the client), however they are split into chunks and whatever error ends the stream: each text passed to handlers is a JSON value (the grammar of RFC 8259 except that bytes of strings are not checked to be UTF-8, nesting is at most 10000) maybe with leading spaces; all such texts joined together are exactly a beginning of joined bodies of frames, so that bytes are not lost, not repeated, and header bytes are not taken as a part of a message; the session ends after at most length/4 messages with an error of the stream, of framing or of decoding.", "quantifier": "every byte stream, every chunking, every final error, every set of acceptable messages", "why_tests_cant": "Arbitrary hostile streams and chunk boundaries; soundness of a 31-state scanner with a stack for all inputs.", "anchors": ["pkg/webextensions/server.go:serverCodec.ReadRequestHeader", "pkg/webextensions/client.go:clientCodec.ReadResponseHeader", "pkg/webextensions/frame.go:FrameLimitedReader.ReadHeader"]}
{"id": "C78", "title": "Every call of the client in a browser is settled at most once, exactly when and as it is told by a response, a failure or a disconnect", "statement": "For any sequence of calls, messages, disconnects and failures of ports, if identifiers are different: a promise returned by sendMessage is settled at most once; each call either waits (its request is posted) or is settled; a call that fails to connect or to post is rejected at once; a waiting call is settled by a message exactly when the message has its identifier, it is resolved with a true result, or else rejected with a true error, or else as an invalid response; it is rejected by any disconnect. Requests of different calls have different identifiers. A response of the backend with a non-empty error text or with a result of any method is never considered as invalid.", "quantifier": "every sequence of events, every JSON message, every generator of identifiers, every execution of the server", "why_tests_cant": "Arbitrary interleaving of calls, responses, reconnects and failures.", "anchors": ["examples/webextensions_addon/rpc_client.js:JsonRpcClient.sendMessage", "examples/webextensions_addon/rpc_client.js:JsonRpcClient.messageReceived"]}
{"id": "C79", "title": "The client in a browser connects exactly when there is no usable port", "statement": "A call of sendMessage opens a connection exactly when there was no connection yet, or something was disconnected or a failure of the port was noticed since the last one; otherwise the request is posted to the only usable port. After an event of disconnect nothing waits for a response and the next call connects.", "quantifier": "every sequence of events", "why_tests_cant": "Unbounded histories of reconnects.", "anchors": ["examples/webextensions_addon/rpc_client.js:JsonRpcClient.getPort", "examples/webextensions_addon/rpc_client.js:JsonRpcClient.disconnected"]}
{"id": "C80", "title": "The client in a browser rejects results that are zero, false, null or empty and never forgets such requests", "statement": "A successful response whose result is 0, false, null or an empty string is reported as an invalid response (e.g. Sleep(0) of the sample backend), and the entry stays in promiseMap till disconnect. Entries of promiseMap are exactly requests that are posted and since then there was no disconnect and no other response to them.", "quantifier": "every sequence of events, every message", "why_tests_cant": "Needs particular values of results; the leak is not visible in results.", "anchors": ["examples/webextensions_addon/rpc_client.js:JsonRpcClient.messageReceived", "examples/webextensions_backend/webextensions_example_backend.go:ExampleBackend.Sleep"]}
{"id": "C81", "title": "Disconnect of a port fails only requests posted to it unless a failure is noticed earlier than the event", "statement": "If port.error is never set before the event of disconnect then a disconnect rejects only requests posted to that port. Otherwise the client may connect to another port, and then the late event of the old port rejects requests of the new one.", "quantifier": "every sequence of events", "why_tests_cant": "Needs a particular order of asynchronous events.", "anchors": ["examples/webextensions_addon/rpc_client.js:JsonRpcClient.disconnected"]}
{"id": "C82", "title": "The sample backend sleeps for the requested time and reports negative arguments of the square root", "statement": "Sleep(t) returns t and sleeps t milliseconds for any t up to 9223372036854, not at all if t is not positive. The response to Sqrt of a negative number is an error with the text \"square root of negative number\" and it is seen so by the client in a browser.", "quantifier": "every integer, every number", "why_tests_cant": "Overflow only for huge arguments.", "anchors": ["examples/webextensions_backend/webextensions_example_backend.go:ExampleBackend.Sleep", "examples/webextensions_backend/webextensions_example_backend.go:ExampleBackend.Sqrt"]}
{"id": "C83", "title": "Every JSON text is read as its value", "statement": "A text that is a JSON document by RFC 8259 (any white space, escapes, surrogate pairs, numbers) is parsed to exactly its value. Any text accepted by the scanner, including invalid UTF-8 and unpaired surrogates, is parsed without a panic.", "quantifier": "every document, every accepted text", "why_tests_cant": "Unbounded grammar, nesting and escapes.", "anchors": ["pkg/webextensions/server.go:serverCodec.ReadRequestHeader"]}
{"id": "C84", "title": "Parameters are decoded in accordance with their meaning", "statement": "For every method and every JSON array of parameters whose objects have distinct names, decoding of the first parameter gives a query exactly when each known member (names regardless of case) has a proper type, null and absent members are the same; otherwise an error is reported. Extra parameters and unknown members are ignored, no parameters mean an empty object, named parameters are errors. Repeated members with arrays are merged, so \"the last one wins\" is false.", "quantifier": "every method, every value of parameters", "why_tests_cant": "Unbounded set of values; merging of repeated members is seen only for particular pairs.", "anchors": ["pkg/burl_rpc/burl_rpc.go:HelloQuery", "pkg/burl_rpc/burl_rpc.go:CaptureQuery", "pkg/burl_rpc/burl_rpc.go:UrlMentionsQuery", "pkg/burl_rpc/burl_rpc.go:Location"]}
{"id": "C85", "title": "Messages become requests with their methods, parameters and identifiers", "statement": "Each JSON object of a stream of frames becomes a request when its method is a string, null or absent; the request has that method, verbatim texts of params and id (null is the same as absence). What is called is determined by values of the method and of the parameters, value of id in the response is the same as in the request. A message null is a request without a method, any other message ends reading.", "quantifier": "every stream of messages, every schedule of reads", "why_tests_cant": "Unbounded input and concurrency.", "anchors": ["pkg/webextensions/server.go:MappedServerCodec.ReadRequestHeader", "pkg/webextensions/frame.go:FrameLimitedReader.Read"]}
{"id": "C86", "title": "The backend understands requests of burl_client exactly", "statement": "For each command line of burl_client with subcommands mentions, set, capture, visit the bytes of the request are decoded by the backend to the query made of the arguments (bytes that are not UTF-8 are replaced by U+FFFD) and its identifier.", "quantifier": "every list of arguments", "why_tests_cant": "Unbounded strings with escaping and encodings on both sides.", "anchors": ["tools/burl_client/burl_client.go:main", "cmd/burl_backend/burl_backend.go:main"]}
{"id": "C87", "title": "Each call gets exactly its own response", "statement": "A call of the client is completed at most once. Requests have numbers 0, 1, 2..., at most one request for a call. A call is completed with a result or an error of the server only if its request was sent and a response with that number was read; the first such response completes the call with its content, unless sending of the request has failed. Otherwise the reason is a failure of writing, Close or the end of the stream (ErrShutdown after Close, unexpected EOF without it).", "quantifier": "every interleaving of callers, reading and Close; every content of responses", "why_tests_cant": "Races of callers, of the reading goroutine and of Close.", "anchors": ["pkg/webextensions/client.go:clientCodec.WriteRequest", "pkg/webextensions/client.go:clientCodec.ReadResponseHeader"]}
{"id": "C88", "title": "Requests of the client are never interleaved and are not sent after Close", "statement": "Writing of a request (its JSON object and then its frame) is over before the next one is started. After Close, and after any call has failed since the connection is over, nothing is sent. Close succeeds exactly once.", "quantifier": "every interleaving", "why_tests_cant": "Concurrent callers share the buffer of a frame.", "anchors": ["pkg/webextensions/client.go:clientCodec.WriteRequest", "pkg/webextensions/client.go:ClientCommand.Close"]}
{"id": "C89", "title": "Calls of the client are not lost", "statement": "While there is a call that is not completed, some step of the client or of the connection is possible; the number of steps is limited by numbers of calls, of responses and of Close, so when the stream of responses ends all calls are completed.", "quantifier": "every reachable state", "why_tests_cant": "Deadlocks depend on interleaving.", "anchors": ["pkg/webextensions/client.go:NewClientCodecSplit"]}
{"id": "C90", "title": "Responses are decoded as they are meant", "statement": "A JSON object is a response when id is an unsigned 64 bit integer, null or absent and there is either a string in error (an empty one means unspecified error) or null there and a result that is not null. The number of the call, the text of the error, the verbatim text of the result are those of the object. Any other message ends the client. Finding: a message without a number is taken for a response to the first call, in particular that of the wrapper.", "quantifier": "every JSON text with different names of members; every stream of responses", "why_tests_cant": "Unbounded input.", "anchors": ["pkg/webextensions/client.go:clientCodec.ReadResponseHeader", "cmd/burl_backend/install.go:processInstallFlags"]}
{"id": "C91", "title": "Client and server understand each other", "statement": "For each query of the command line of burl_client and each number of a call the server understands the query, and its response is read by the client as a response to that call with the error or the text of the result the method has returned; the value decoded from the text is the value of the result.", "quantifier": "every query, every execution of the server", "why_tests_cant": "Composition of encoders and decoders for unbounded values with concurrent requests.", "anchors": ["pkg/webextensions/client.go:clientCodec.ReadResponseHeader", "pkg/webextensions/server.go:MappedServerCodec.ReadRequestHeader", "tools/burl_client/burl_client.go:main"]}
{"id": "C92", "title": "The backend is started with connected streams and is waited for", "statement": "NewClientCommand runs the command with its arguments only when both pipes are connected, success means that it is running; ErrNoCommand is returned exactly for an empty command line. ClientCommand.Close closes the client, then waits for the command regardless of an error, an error of closing takes precedence.", "quantifier": "every command line, every failure", "why_tests_cant": "Failures of pipes are hard to arrange.", "anchors": ["pkg/webextensions/client.go:NewClientCommand", "pkg/webextensions/client.go:ClientCommand.Close"]}
{"id": "C93", "title": "Replies are printed as the same JSON values", "statement": "Each reply that burl_client decodes is printed as JSON text of that value followed by a newline: members of objects are sorted by names and the last one of those with the same name is kept, each element and each member starts its own line with two spaces of indentation for each level. Unless names are repeated and numbers are changed by conversion to float64, it is the same value up to the order of members. The printed text is read back as a value that is printed to the same text.", "quantifier": "every text of a result, every value", "why_tests_cant": "Arbitrary nesting, any strings and names.", "anchors": ["tools/burl_client/burl_client.go:mainWithGracefulShutdown"]}
{"id": "C94", "title": "The query of hello is understood as it is written", "statement": "The subcommand hello sends exactly one request with the given JSON value as its only parameter, and the server decodes it to the formats written in that value, otherwise to an error. Anything that is not JSON text and numbers that are out of range of float64 are refused before sending. Without an argument the query is for formats org, object and org-protocol of version 0.2.", "quantifier": "every argument, any nesting, any contract of conversion of numbers", "why_tests_cant": "The value passes through decoding to a map, encoding and decoding to a structure.", "anchors": ["tools/burl_client/burl_client.go:callHello"]}
{"id": "C95", "title": "Actions of burl_client", "statement": "Actions are a prefix of: start of the backend, the request, printing, closing, waiting. The backend is started exactly for the command before the separator when pipes and the start succeed; the request is that of the subcommand; printed is exactly the result of the call. Exit code is 0 exactly if help is requested or the call, closing and waiting have succeeded. The naive claims that an unknown subcommand is rejected before the start and that the started process is always waited for are false.", "quantifier": "every command line, every outcome of calls", "why_tests_cant": "All combinations of failures.", "anchors": ["tools/burl_client/burl_client.go:mainWithGracefulShutdown"]}
{"id": "C96", "title": "A call gets the reply to its own query", "statement": "The client and the server are connected by streams of bytes. Requests of any number of calls are written in any order, the server reads any beginning of that stream, executes requests concurrently, the client reads any beginning of what the server has sent. Then a call that is completed because of a response has got the reply (or the error) of the method that has been executed for the query of this call and of no other one. All queries of the command line client are such requests. Replies about notes are not deeper than 14 levels of files and headings, so they are within the limit of nesting of JSON.", "quantifier": "every number of calls, every interleaving of both processes, every way the streams are cut and chunked, every content of files", "why_tests_cant": "Combinations of interleavings of two concurrent processes with partial reads.", "anchors": ["pkg/webextensions/client.go:NewClientCodecSplit", "pkg/webextensions/frame.go:ReadHeader", "pkg/webextensions/server.go:NewServerCodecSplit", "cmd/burl_backend/burl_backend.go:main", "tools/burl_client/burl_client.go:mainWithGracefulShutdown"]}
{"id": "C97", "title": "What is printed by burl_client is the reply of the backend to the query", "statement": "If burl_client prints something then it is the layout with indentation of the JSON value of the reply of the method that the backend has executed for the query given in the command line.", "quantifier": "every command line, every execution of the backend, every way the streams are cut and chunked", "why_tests_cant": "It is a composition of parsing of the command line, encoding, framing, decoding, concurrent execution and printing.", "anchors": ["tools/burl_client/burl_client.go:mainWithGracefulShutdown", "cmd/burl_backend/burl_backend.go:main"]}
{"id": "C98", "title": "Every request gets exactly one response", "statement": "If the server has received the whole stream of requests and has closed the connection, and the client has read the stream of responses till its end, then numbers of responses are exactly numbers of requests, without omissions and repetitions, each response is the reply to the query of the call with this number.", "quantifier": "every number of calls, every interleaving", "why_tests_cant": "Unbounded number of concurrent requests.", "anchors": ["pkg/webextensions/server.go:NewServerCodecSplit", "pkg/webextensions/client.go:NewClientCodecSplit"]}
{"id": "C99", "title": "Output and exit codes of burl_tool", "statement": "With a URL burl_tool prints nothing or exactly one JSON document with indentation that shows a part of the tree of links (the whole tree of at most 8 links); it crashes exactly when the part has a missing heading; the exit code is 0 if and only if there was no error.  With prefixes it prints each found link once, one in a line, and nothing if there was an error.  Without arguments nothing is read and printed, exit codes are 0 for help, 1 if there are only options, 2 for wrong options.", "quantifier": "every command line, contents of files and failures of reading, order of maps", "why_tests_cant": "Unbounded command lines and files; all texts that have to be escaped in JSON.", "anchors": ["cmd/burl_tool/burl_tool.go:mainWithGracefulShutdown", "cmd/burl_tool/burl_tool.go:main"]}
{"id": "C100", "title": "Manifests are JSON documents with expected members", "statement": "A text of a manifest is a JSON document with indentation, its only reading is the object with name, description, path, type and a non-empty list of origins or of extensions; every file written by the installer, that is not the wrapper, is such a document.  The path in it is the path of the executable if and only if the latter is valid UTF-8.", "quantifier": "every manifest, every execution of the installer", "why_tests_cant": "All strings including ones with special characters and invalid UTF-8.", "anchors": ["pkg/webextensions/manifest.go:Manifest", "cmd/burl_backend/install.go:writeManifest"]}
{"id": "C101", "title": "Meaning of the command line of the backend", "statement": "A command line is accepted if and only if it is a sequence of known options with one or two dashes, a value in the same or in the next word (switches: only in the same word and only boolean), followed by other arguments, and no empty value of a list option follows another value unless the first one is empty.  Such reading is unique.  The last value of a simple option counts, all values of lists count (an empty first value drops defaults, a non-empty one adds to them), files are options and other arguments in their order, formats of other arguments are determined by extension.", "quantifier": "every list of arguments, every defaults", "why_tests_cant": "Unbounded sequences of words and values.", "anchors": ["cmd/burl_backend/args.go:AddBackendFlags", "cmd/burl_backend/burl_backend.go:createGeneralFlags", "cmd/burl_backend/install.go:createInstallFlags", "pkg/burl_links/flag.go:AddSourceArgs"]}
{"id": "C102", "title": "Modes of the backend", "statement": "A wrong command line has no effects.  Help has precedence over version, both do not touch files and print only their text even if installation is requested; then files are created and requests are not served; only without all these options the program serves requests, with files, schemes, command and arguments of Emacs from the command line; before that it only creates an empty log file that is not accessible for others (or leaves the existing one).  It does serve unless the log can not be opened or schemes are wrong.  The exit code is 0 if and only if it has succeeded.", "quantifier": "every command line, initial state of files and failures of system calls, every state of a run", "why_tests_cant": "All combinations of options, of states of files and of failures.", "anchors": ["cmd/burl_backend/burl_backend.go:mainWithGracefulShutdown", "cmd/burl_backend/burl_backend.go:processGeneralFlags", "cmd/burl_backend/burl_backend.go:main"]}
{"id": "C103", "title": "The wrapper starts the backend with options of the installer", "statement": "The generated wrapper, when read as a shell script, checks that the backend is executable and starts it with words, that being parsed by the backend again, lead to service of requests (never to another mode) with the options that were given to the installer where file names are absolute.", "quantifier": "every accepted command line of the installer, every state of files when the wrapper is started", "why_tests_cant": "All values that have to be quoted, all combinations of options.", "anchors": ["cmd/burl_backend/install.go:processInstallFlags", "cmd/burl_backend/args.go:AsShellCommand", "cmd/burl_backend/burl_backend.go:mainWithGracefulShutdown"]}
{"id": "C104", "title": "Success of installation", "statement": "If success is reported then every requested file has the generated content or the content is printed (for \"-\"), with exceptions: the wrapper is not written over the backend, that is allowed only if there is nothing to wrap; with -force a manifest may overwrite the wrapper or another manifest created by the same command, and a longer file is taken for the same one when the content has 4096 bytes.  Non-default options are never dropped: then a wrapper is required.", "quantifier": "every configuration, initial state of files and failures of system calls", "why_tests_cant": "Unbounded states of the file system and all places where a call may fail.", "anchors": ["cmd/burl_backend/install.go:processInstallFlags", "pkg/burl_fileutil/fileutil.go:WriteFile"]}
{"id": "C105", "title": "Repeated members of requests", "statement": "A request may have several members with the same name (names are compared regardless of case).  Parameters of any structure are accepted if and only if each member has a suitable type, the query is what is obtained by putting members over each other in their order: null does not change a string, a number or a structure, it resets a list, an optional number and a value of any type; structures are merged; elements of a list are put over elements of previous lists, even over ones that are hidden by a shorter list.  The method of a message is obtained in the same way, parameters and the identifier are the last ones.", "quantifier": "every JSON document and every method", "why_tests_cant": "Any number of repeated members in any order with any nesting.", "anchors": ["pkg/burl_rpc/burl_rpc.go:UrlMentionsQuery", "pkg/burl_rpc/burl_rpc.go:SearchQuery", "pkg/burl_rpc/burl_rpc.go:HelloQuery", "pkg/webextensions/server.go"]}
{"id": "C106", "title": "URLs passed to a callback", "statement": "ExtractUrls visits words of a file (separated by white space, also by characters outside of ASCII) in order and calls the callback for URLs of each word till it returns false; the rest of URLs of this word is skipped, next words are visited.  A word is found if it fits into 64 KiB together with the following white space character (with one more byte at the end of the file), a longer one stops reading with an error.  URLs are parts of words having the shape of a URL and, if no line is too long, they are the same as ones in the tree made by Extract for text files.  False returned by the callback does not stop extraction.", "quantifier": "every file, failure of reading, sizes of blocks returned by the operating system, every callback (it may remember earlier calls)", "why_tests_cant": "Boundaries of blocks inside of characters and words at any position, unbounded files.", "anchors": ["pkg/burl_links/extract_txt.go:ExtractUrls", "pkg/burl_links/urlmatch_txt.go:MatchIsUrl"]}
{"id": "C107", "title": "URLs in words of text files are found", "statement": "If a word has a complete URL (scheme and domain, or scheme and path, or domain of at least two components; a path is optional), the character after it can not continue it and it is preceded by nothing or by characters that do not belong to URLs, then the link with exactly this URL and with the number of the line is in the tree made by Extract for text files (unless a filter rejects it), and ExtractUrls passes it to the callback with proper scheme, domain and path.  It is not so for URLs having an IP address instead of a domain name, e.g. http://127.0.0.1/path is missed.", "quantifier": "every file, line, word, URL, text around it, set of letters outside of ASCII, filter, sizes of blocks", "why_tests_cant": "Preference of alternatives of the regular expression has to be followed for unbounded URLs and their surroundings.", "anchors": ["pkg/burl_links/extract_txt.go:Extract", "pkg/burl_links/extract_txt.go:ExtractUrls", "pkg/burl_links/urlmatch_txt.go:MatchIsUrl"]}
{"id": "C108", "title": "Links inside of lines of Org files are found", "statement": "If a line of an Org file has links [[URL]] or [[URL][description]], <scheme:text> or scheme:text surrounded by any text without unclosed brackets, then every of these links having a configured scheme is in the tree made by Extract with exactly this URL, description and number of the line, unless a filter rejects it.  Links without brackets may have balanced parentheses, punctuation marks after them are not included.  It is not so for links without brackets having just one character after the colon, e.g. mid:1 is missed.", "quantifier": "every file, line, sequence of links in the line, text around them, configured schemes without brackets and blanks, set of letters outside of ASCII, filter, sizes of blocks", "why_tests_cant": "Preference of alternatives of the regular expression has to be followed for unbounded lines, a match that starts before a link could swallow it.", "anchors": ["pkg/burl_links/extract_org.go:OrgLinkSource.Extract", "pkg/burl_links/extract_org.go:OrgLinkMatchIsUrl"]}
{"id": "C109", "title": "The server does not accumulate requests", "statement": "At every moment of serving the server remembers identifiers of exactly those requests that are executed or have responses that are not encoded yet, each one once.  Nothing is kept when all requests that have been read are answered, even if writing of responses failed.", "quantifier": "every stream of requests, order of execution of calls, results of system calls, failure of writing", "why_tests_cant": "A leak shows itself only in long sessions; all interleavings of concurrent calls matter.", "anchors": ["pkg/webextensions/server.go:serverCodec", "cmd/burl_backend/burl_backend.go:mainWithGracefulShutdown"]}
{"id": "C110", "title": "The sample client reports both calls and always waits for its backend", "statement": "When the program given in arguments can be started, the sample client sends requests for square roots of 2 (number 0) and of -2 (number 1) one after another, prints exactly one line to stdout for each of them (the result or the text of the error, whatever is the reason of the failure), closes the connection and waits for the program. The exit code is 0 exactly when closing and waiting succeed; otherwise the error of closing, else that of waiting, is printed to stderr and the exit code is 1. Without a command the usage is printed; when the program can not be started its error is printed and nothing is sent. With the sample backend the lines are the root of 2 and 'square root of negative number'. Finding: exit code 0 does not mean that the calls have succeeded.", "quantifier": "for all command lines, all texts of errors of pipes, of start, of close and of wait, all completions of both calls, all formats of numbers", "why_tests_cant": "The failures of pipes, of closing and of the connection in all combinations can not be provoked by running the client; the deferred function that overrides the error is visible only for some of them.", "anchors": ["examples/webextensions_client/webextensions_example_client.go:27-66", "pkg/webextensions/client.go:59-97", "examples/webextensions_backend/webextensions_example_backend.go:30-54"]}
{"id": "C111", "title": "Links inside of lines of notes are mentioned", "statement": "If a line of an Org file that was read has a link (in brackets, in angle brackets or plain, surrounded by other text) with a configured scheme and its URL is wanted by a urlMentions query, then the reply has a link with this URL under the node of this file, and under exactly the headings enclosing its line when levels of headings are not skipped, provided that total count of matches does not exceed the limit of the query. The same is true for a URL in a word of a text file, it is directly under the node of the file.", "quantifier": "every set of files, every line number, sequence of links in the line, text around them, every query, every schedule of concurrent requests", "why_tests_cant": "End-to-end completeness over all contents of files, queries and interleavings.", "anchors": ["cmd/burl_backend/burl_backend.go:BurlBackend.UrlMentions", "pkg/burl_links/extract_org.go:OrgLinkSource.Extract", "pkg/burl_links/extract_txt.go:Extract", "pkg/burl_links/node_count.go:FilterChildrenCount"]}
{"id": "C112", "title": "Links inside of lines are found by their prefixes", "statement": "If a line of an Org file has links [[URL]] or [[URL][description]], <URL> or URL surrounded by any text without unclosed brackets, or a line of a text file has URLs that are separated from other text, then each of these links that starts from some of prefixes of a linkSet request (with a colon added to a bare scheme) is in the set made by ExtractSet and in the reply to the request. It does not depend on order of prefixes, even when some prefixes are beginnings of others. Links without brackets may have balanced parentheses, punctuation marks after them are not included. It is not so for links without brackets having less than two characters after the prefix, e.g. http://a/x is missed for the prefix http://a/.", "quantifier": "every file, line, sequence of links in the line, text around them, list of prefixes without brackets and blanks, sizes of blocks, every schedule of concurrent requests", "why_tests_cant": "Preference of alternatives of a regular expression built from the request has to be followed for unbounded lines and arbitrary prefixes.", "anchors": ["pkg/burl_links/extract_org.go:OrgLinkSource.ExtractSet", "pkg/burl_links/extract_org.go:MakeLinkSetBase", "pkg/burl_links/extract_txt.go:TxtLinkSource.ExtractSet", "cmd/burl_backend/burl_backend.go:BurlBackend.LinkSet"]}
{"id": "C113", "title": "The menu of the sample add-on", "statement": "The menu of the sample add-on has three items after the event of installation and no items before it, so there is no menu when a browser is started again and the add-on is just loaded. A choice of an item makes exactly one call of the method described by the title of the item: example.Sqrt with 2 or -2, example.Sleep with 1500; nothing else makes calls. The outcome of every call is told on the console exactly when the promise is settled. In response to a message of the sample backend it is the square root of 2, or the error that the number is negative, or 1500.", "quantifier": "every sequence of events of a browser: installation, clicks, messages, failures and disconnects of ports", "why_tests_cant": "Unbounded sequences of events interleaved with responses.", "anchors": ["examples/webextensions_addon/background.js:createMenu", "examples/webextensions_addon/background.js:onMenu", "examples/webextensions_addon/background.js:Backend"]}
{"id": "C114", "title": "Repeated members of responses", "statement": "A response may have several members with the same name (names are compared regardless of case). The last error and the last result count, null among them; the number of the call is the last one that is not null. The message is a response if and only if each number and each error has a suitable type, the last error is a string or null, and there is a last result besides null in the latter case. So an error may be cancelled by a member after it.", "quantifier": "every JSON object", "why_tests_cant": "Any number of repeated members in any order.", "anchors": ["pkg/webextensions/client.go:clientCodec.ReadResponseHeader"]}
{"id": "C115", "title": "A line of an Org file has exactly the links that are seen there", "statement": "If a line of an Org file is a sequence of links [[URL]] or [[URL][description]], <URL>, URL with any text around them that has neither double opening brackets, unclosed angle brackets nor schemes before colons, then links of the file having the number of this line are exactly these ones in the same order, except links in brackets that are not accepted (see C32) and links that are rejected by the filter. In particular, a line without double opening brackets and schemes before colons has no links. If all lines are of this form then links of the file are those of the lines one after another.", "quantifier": "every file, line, sequence of links in the line, text around them, list of schemes, filter, sizes of blocks", "why_tests_cant": "Preference of alternatives of a regular expression has to be followed for unbounded lines with any number of links and arbitrary text between them.", "anchors": ["pkg/burl_links/extract_org.go:OrgLinkSource.Extract", "pkg/burl_links/extract_org.go:OrgLinkMatchIsUrl"]}
{"id": "C116", "title": "Links found by prefixes are exactly those that are seen in files", "statement": "If every line of Org and text files is a sequence of links ([[URL]] or [[URL][description]] and <URL> in Org files, URL in both kinds of files) with any text around them that contains none of the prefixes (and neither double opening brackets nor unclosed angle brackets in Org files), then the set of links by prefixes consists exactly of those of these links that start with characters of some prefix, each one once. Nothing else is found and nothing is lost, for one file and for a reply to a linkSet request.", "quantifier": "every set of files, lines, sequence of links in a line, text around them, list of prefixes, sizes of blocks, schedule of concurrent requests", "why_tests_cant": "Absence of other links requires to exclude matches at every place of unbounded lines; the lists of prefixes and texts between links are arbitrary.", "anchors": ["pkg/burl_links/extract_org.go:OrgLinkSource.ExtractSet", "pkg/burl_links/extract_org.go:MakeLinkSetBase", "pkg/burl_links/extract_txt.go:TxtLinkSource.ExtractSet", "cmd/burl_backend/burl_backend.go:BurlBackend.LinkSet"]}
{"id": "C117", "title": "URLs of text files are exactly those that are seen there", "statement": "If words of every line of a text file consist of complete URLs (a scheme and a domain or a path, or a domain of at least two components) and of other text that contains nothing looking like a URL, the text before a URL ending with characters that can not belong to it, then links of the file are exactly these URLs in the same order with numbers of their lines, except those that are rejected by the filter. ExtractUrls calls the callback exactly for these URLs in the same order with the same scheme, domain and path.", "quantifier": "every text file, number of URLs in a word, text around them, filter, sizes of blocks, table of letters outside of ASCII", "why_tests_cant": "Absence of other links requires to exclude matches of a regular expression at every place of words of unbounded length; empty matches and matches that are not URLs are between the links.", "anchors": ["pkg/burl_links/extract_txt.go:Extract", "pkg/burl_links/extract_txt.go:ExtractUrls", "pkg/burl_links/urlmatch_txt.go:MatchIsUrl"]}
{"id": "C118", "title": "A message that is not a request ends reading at once", "statement": "If the method of a message is neither a string nor null (in any of its repeated or differently capitalised members) then all requests in frames before it are read, nothing is read after it, and the end is reported as a failure to decode the message. It does not matter what follows and how the stream ends.", "quantifier": "every stream of messages, every schedule of reads, every end of the stream", "why_tests_cant": "Unbounded input and schedules of reads.", "anchors": ["pkg/webextensions/server.go:MappedServerCodec.ReadRequestHeader"]}
{"id": "C119", "title": "Notes from standard input swallow requests (finding)", "statement": "If a source of notes is \"-\" then it is the stream of requests. When links are extracted after some requests have been read, everything after them in the stream is text of notes: URLs of these requests become links, no other request is read or answered, and the stream ends as if there were no more requests. So the claim that every request of the stream is read is false.", "quantifier": "every stream, every number of requests before extraction, every schedule of reads; executions in which extraction has no errors and happens between two requests", "why_tests_cant": "Depends on scheduling of goroutines.", "anchors": ["pkg/burl_links/link_source.go:ExtractLinksFromFile", "cmd/burl_backend/burl_backend.go:main"]}
{"id": "C120", "title": "Garbage in a frame is reported at once", "statement": "If the first byte of the body of a frame is neither white space nor a possible beginning of a JSON value then all messages of frames before it are read and reading ends with a syntax error, whatever follows, however long the announced size is (up to the limit), even if the rest of the frame never comes.", "quantifier": "every stream, every schedule of reads, every end of the stream", "why_tests_cant": "Unbounded input and schedules of reads.", "anchors": ["pkg/webextensions/frame.go:FrameLimitedReader.ReadHeader", "pkg/webextensions/server.go:MappedServerCodec.ReadRequestHeader"]}
{"id": "C121", "title": "A syntax error is found at the first byte that cannot continue an object", "statement": "If the beginning of a message may be completed to a JSON object but together with the next byte it may not, then messages of frames before it are read and reading ends with a syntax error, whatever follows the byte, even if the rest of the frame never comes. A whole frame whose body begins as an object causes a syntax error only if it has such byte.", "quantifier": "every stream, every position of the wrong byte, every schedule of reads", "why_tests_cant": "Unbounded input, nesting, and schedules of reads.", "anchors": ["pkg/webextensions/frame.go:FrameLimitedReader.ReadHeader", "pkg/webextensions/server.go:MappedServerCodec.ReadRequestHeader"]}
{"id": "C122", "title": "Messages that are not objects", "statement": "A frame that contains null, maybe with white space before it, is read as a request without a method, parameters, and an identifier, and reading goes on; no method is called for it and the response is an error with a null identifier. A number, a string, true, or false in a frame ends reading with an error that is not a syntax error; requests before it are read. An array ends reading in the same way as soon as its last bracket is read, even if the rest of the frame never comes. A client stops reading of responses at any scalar, null included.", "quantifier": "every stream of messages around it, every schedule of reads, every scalar", "why_tests_cant": "Unbounded input and schedules of reads; a scalar ends only together with its frame.", "anchors": ["pkg/webextensions/server.go:serverCodec.ReadRequestHeader", "pkg/webextensions/frame.go:FrameLimitedReader.ReadHeader"]}
