(** Extraction of links that is used by the program: pkg/burl_links/extract_org.go, extract_txt.go.  See Backend.v for [extractors].
    [c]: patterns of schemes are set when command line options are parsed, they are not changed later.  [chunk]: sizes of blocks
    that are read, they have no effect on results (see [chunk_org], [chunk_txt] and [set_chunk]), so one function is enough
    for all files. *)
From Verif Require Import GoBase GoSlice Utf8 Flags LinkTypes LinkTree Emacs Backend Extract.

(** OrgLinkSource.Extract (extract_org.go:128-171), TxtLinkSource.Extract (extract_txt.go:46-78), ExtractSet of both. *)
Definition real (u : rune -> bool) (c : schemeRe) (chunk : nat -> N) : extractors := mkX
  (fun k content broken =>
     match k with
     | Org => OrgExtract u c chunk None content broken
     | Txt => TxtExtract u chunk None content broken
     end)
  (fun k content broken filters set => ExtractSet k chunk content broken filters set).
