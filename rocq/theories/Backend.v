(** Model of handlers of requests: cmd/burl_backend/burl_backend.go:91-275, and of reading of several files:
    pkg/burl_links/link_source.go. *)
From Verif Require Import GoBase GoSlice Utf8 Flags LinkTypes LinkTree LinkSpec LinkMain Url Fuzzy Emacs.

(** Extract and ExtractSet of OrgLinkSource and TextLinkSource are arguments here.
    [xtree k content broken]: tree and error for nil filter; [xset k content broken prefixes set]: updated set and error. *)
Record extractors := mkX {
  xtree : kind -> str -> bool -> outcome (option node * option berr);
  xset : kind -> str -> bool -> list str -> list str -> outcome (list str * option berr) }.

(** Parameters of a running program: burl_links.TextLinkSource list, DisableLinkSet; extraction; unicode.ToLower for
    non-ASCII runes. *)
Record backend := mkBackend { srcFiles : list source; linkSetDisabled : bool; ext : extractors; lower : rune -> rune }.

(** link_source.go:35-55.  An unmodelled outcome: "-" is standard input, any answer is possible when it is read.
    TreeChildrenNode.Empty: link_tree.go:166. *)
Definition named (name : str) (t : node) : option node :=
  match t with
  | Inner _ [] => None
  | Inner _ ch => Some (Inner (PFile name) ch)
  | Leaf _ => Some t
  end.
Definition ExtractLinksFromFile (x : extractors) (src : source) : hprog (option node * option berr) :=
  let '(k, name) := src in
  HRead name (fun r =>
    match r with
    | RNone => HRet (None, Some EOpen)
    | RData content broken =>
        match xtree x k content broken with
        | Panic => HPanic
        | Done (Some t, err) => HRet (named name t, err)
        | Done (None, err) => HRet (None, err)
        end
    end).

(** link_source.go:64-73: trees of files that are appended to the group; the loop stops after an error *)
Fixpoint group_loop (x : extractors) (srcs : list source) (acc : list node) : hprog (list node * option berr) :=
  match srcs with
  | [] => HRet (acc, None)
  | src :: srcs' =>
      hbind (ExtractLinksFromFile x src) (fun '(tree, err) =>
        let acc := match tree with Some t => acc ++ [t] | None => acc end in
        match err with
        | Some e => HRet (acc, Some e)
        | None => group_loop x srcs' acc
        end)
  end.

(** link_source.go:57-78 *)
Definition ExtractLinksFromFileGroup (x : extractors) (srcs : list source) : hprog (option node * option berr) :=
  match srcs with
  | [] => HRet (None, None)
  | _ => hbind (group_loop x srcs []) (fun '(ch, err) =>
           HRet (match ch with [] => None | _ => Some (Inner PFileGroup ch) end, err))
  end.

(** burl_backend.go:107-119 initializer.  When an error is stored fileGroup is not used. *)
Definition initializer (bk : backend) : hprog notes :=
  match srcFiles bk with
  | [] => HRet (Err ENoFiles)
  | _ =>
      hbind (ExtractLinksFromFileGroup (ext bk) (srcFiles bk)) (fun '(group, err) =>
        match err, group with
        | Some e, _ => HRet (Err e)
        | None, None => HRet (Err ENoLinks)
        | None, Some t => HRet (Ok t)
        end)
  end.

(** ** Requests and replies, pkg/burl_rpc/burl_rpc.go.  Fields that are not used are omitted. *)

(** 43-52: Format and Version of an element of HelloQuery.Formats *)
Definition HelloQuery := list (str * str).
(** 61-73: Format, Data.Url, whether Error is not null *)
Record CaptureQuery := mkCapture { cqFormat : str; cqUrl : str; cqError : bool }.
(** 29-36: Variants, Options.CountLimit *)
Record UrlMentionsQuery := mkMentions { mqVariants : list str; mqLimit : option Z }.
(** 38-41 *)
Record Location := mkLocation { locFile : str; locLine : Z }.
(** 18-22 *)
Record SearchQuery := mkSearch { sqQuery : str; sqLimit : option Z; sqTolerance : option Z }.

Inductive request :=
| QHello (q : HelloQuery) | QCapture (q : CaptureQuery) | QMentions (q : UrlMentionsQuery) | QVisit (q : Location)
| QSearch (q : SearchQuery) | QLinkSet (prefix : list str).

Inductive reply :=
| PError (e : berr)
| PHello (format version : str) (capabilities : list str)
| PCapture (preview : bool) (status : str)
| PMentions (c : cnode)
| PVisit
| PSearch (urls : list str)
| PLinkSet (urls : list str).

(** burl_backend.go:123-146 Hello: version of the first suitable format, "" if there is none (126-132) *)
Fixpoint hello_version (q : HelloQuery) : str :=
  match q with
  | [] => []
  | (f, v) :: q' => if str_eqb f (b "org-protocol") then v else hello_version q'
  end.
Definition Hello (bk : backend) (q : HelloQuery) : reply :=
  match hello_version q with
  | [] => PError ETooOld
  | version =>
      PHello (b "org-protocol") version
        (match srcFiles bk with
         | [] => []
         | _ => [b "visit"; b "urlMentions"] ++ (if linkSetDisabled bk then [] else [b "linkSet"])
         end)
  end.

(** 148-162 *)
Definition Capture (q : CaptureQuery) : hprog reply :=
  if negb (str_eqb (cqFormat q) (b "org-protocol")) then HRet (PError EFormat)
  else if cqError q then HRet (PCapture true (b "preview"))
  else hbind (OrgProtocol (cqUrl q)) (fun err =>
         match err with
         | Some e => HRet (PError e)
         | None => HRet (PCapture false (b "success"))
         end).

(** 164-196; [entries]: order in which the map of schemes is iterated *)
Definition query_urls (entries : list (str * str)) (q : UrlMentionsQuery) : list str :=
  flat_map (fun u => if str_eqb u [] then [] else UrlVariants entries u) (mqVariants q).
Definition UrlMentions (entries : list (str * str)) (q : UrlMentionsQuery) : hprog reply :=
  let variants := query_urls entries q in
  if negb (existsb (fun u => negb (str_eqb u [])) (mqVariants q)) then HRet (PError ENoUrls)
  else HOnce (fun v =>
    match v with
    | Err e => HRet (PError e)
    | Ok tree =>
        let filter link := existsb (fun l => str_eqb l (URL link)) variants in
        let countLimit := match mqLimit q with Some l => l | None => 8%Z end in
        match limited filter tree countLimit with
        | Some (Done c) => HRet (PMentions c)
        | _ => HPanic
        end
    end).

(** 198-214 *)
Definition Visit (bk : backend) (q : Location) : hprog reply :=
  if negb (existsb (fun src => str_eqb (locFile q) (snd src)) (srcFiles bk)) then HRet (PError EProhibited)
  else hbind (VisitFile (locFile q) (locLine q)) (fun err =>
         match err with
         | Some e => HRet (PError e)
         | None => HRet PVisit
         end).

(** 216-250 *)
Definition HSearch (bk : backend) (q : SearchQuery) : hprog reply :=
  HOnce (fun v =>
    match v with
    | Err e => HRet (PError e)
    | Ok tree =>
        match Search (lower bk) (sqQuery q) (map URL (all_links tree)) (sqLimit q) (sqTolerance q) with
        | Panic => HPanic
        | Done None => HRet (PError EArguments)
        | Done (Some urls) => HRet (PSearch urls)
        end
    end).

(** link_source.go:80-103; the set is a list of different strings *)
Fixpoint ExtractLinkSetFromFileGroup (x : extractors) (srcs : list source) (filters : list str) (result : list str)
  : hprog (list str * option berr) :=
  match srcs with
  | [] => HRet (result, None)
  | (k, name) :: srcs' =>
      HRead name (fun r =>
        match r with
        | RNone => HRet (result, Some EOpen)
        | RData content broken =>
            match xset x k content broken filters result with
            | Panic => HPanic
            | Done (result, Some e) => HRet (result, Some e)
            | Done (result, None) => ExtractLinkSetFromFileGroup x srcs' filters result
            end
        end)
  end.

(** burl_rpc.go:80 *)
Definition LinkSetPrefixCountLimit : nat := 16.

(** 252-275; [order]: order in which elements of the map are enumerated *)
Definition LinkSet (bk : backend) (order : list str -> list str) (prefix : list str) : hprog reply :=
  if linkSetDisabled bk then HRet (PError EDisabled)
  else if LinkSetPrefixCountLimit <? length prefix then HRet (PError ETooMany)
  else hbind (ExtractLinkSetFromFileGroup (ext bk) (srcFiles bk) prefix []) (fun '(urls, err) =>
         match err with
         | Some e => HRet (PError e)
         | None => HRet (PLinkSet (order urls))
         end).

(** Order of iteration over maps is an environment of a request. *)
Record orders := mkOrders { schemes_order : list (str * str); set_order : list str -> list str }.
Definition handle (bk : backend) (o : orders) (q : request) : hprog reply :=
  match q with
  | QHello q => HRet (Hello bk q)
  | QCapture q => Capture q
  | QMentions q => UrlMentions (schemes_order o) q
  | QVisit q => Visit bk q
  | QSearch q => HSearch bk q
  | QLinkSet p => LinkSet bk (set_order o) p
  end.
