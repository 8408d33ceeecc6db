(** Property C119: notes from standard input (pkg/burl_links/link_source.go:36-45, cmd/burl_backend/burl_backend.go:338). *)
From Verif Require Import GoBase Utf8 Regex Flags LinkTypes LinkTree LinkSpec Emacs Backend Extract ExtractSpec Scanner ScannerSpec Real TextExactSpec Stdin StdinProofs Json JsonSpec Unmarshal Frame FrameSpec Stream StreamSpec StreamWitness.

(** C119 (finding).  If notes are read from standard input then requests may become notes: when links are extracted after requests [ts], everything after them is text of notes, no other request is read
    and the stream ends as usual. *)
Theorem C119_swallowed : forall unmarshal x kd s1 s2 ts tree sch fuel, is_stream s1 ts -> Forall object_text ts -> Forall (accepted unmarshal) ts ->
  Forall (fun m => N.of_nat (length m) <= 1073741824)%N ts -> xtree x kd s2 false = Done (tree, None) -> 0 < fuel ->
  shared_stdin (length ts) fuel unmarshal x kd (mkSrc (s1 ++ s2) EOF sch 0) = Some (tree, (ts, EHeader (Io EOF))).
Proof. exact shared_exact. Qed.
Print Assumptions C119_swallowed.
(** Links of such notes are URLs of these requests. *)
Theorem C119_links : forall unmarshal u c chunk s1 s2 ts lines links sch fuel, is_stream s1 ts -> Forall object_text ts -> Forall (accepted unmarshal) ts ->
  Forall (fun m => N.of_nat (length m) <= 1073741824)%N ts -> seen_lines s2 false lines None -> text_links u None 1 lines links -> 0 < fuel ->
  exists tree, shared_stdin (length ts) fuel unmarshal (real u c chunk) Txt (mkSrc (s1 ++ s2) EOF sch 0) = Some (Some tree, (ts, EHeader (Io EOF))) /\ paths tree = map (fun l => ([PNil], l)) links.
Proof. exact shared_links. Qed.
Print Assumptions C119_links.

Definition ex_first : str := b "{""method"":""linkremark.urlMentions"",""params"":[{""variants"":[""http://a.org/""]}],""id"":1}".
Definition ex_second : str := b "{""method"":""linkremark.urlMentions"",""params"":[{""variants"":[""http://b.org/x""]}],""id"":2}".
Definition ex_schemes : schemeRe := match UpdateRe [b "https?"] with Some c => c | None => mkSchemeRe REmpty REmpty end.
Example C119_example :
  match shared_stdin 1 3 is_request (real (fun _ => false) ex_schemes (fun _ => 4096%N)) Txt (mkSrc (ex_frame ex_first ++ ex_frame ex_second) EOF (fun i => Nat.modulo i 7) 0) with
  | Some (Some tree, (ts, e)) => map (fun p => URL (snd p)) (paths tree) = [b "linkremark.urlMentions"; b "http://b.org/x"] /\ ts = [ex_first] /\ e = EHeader (Io EOF)
  | _ => False
  end.
Proof. vm_compute. repeat split. Qed.
(** The claim that all requests are read is false. *)
Theorem C119_refuted : ~ forall unmarshal x kd k fuel s ms tree ts, is_stream (rest s) ms -> Forall object_text ms -> Forall (accepted unmarshal) ms -> shared_stdin k fuel unmarshal x kd s = Some (tree, (ts, EHeader (Io EOF))) -> ts = ms.
Proof. exact shared_refuted. Qed.
Print Assumptions C119_refuted.
