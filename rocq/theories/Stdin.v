(** Notes that are read from standard input by the backend: the source "-", pkg/burl_links/link_source.go:36-38.  It is the stream of
    requests too, cmd/burl_backend/burl_backend.go:main. *)
From Verif Require Import GoBase Frame Stream Flags LinkTypes LinkTree Emacs Backend.

(** Reading of [k] requests, see [Stream.session] *)
Fixpoint some_messages (k : nat) (unmarshal : str -> bool) (d : decoder) (r : flr) : option (list str * decoder * flr) :=
  match k with
  | O => Some ([], d, r)
  | S k =>
      match ReadMessage unmarshal d r with
      | (Err _, _, _) => None
      | (Ok t, d, r) => match some_messages k unmarshal d r with Some (l, d, r) => Some (t :: l, d, r) | None => None end
      end
  end.
(** An execution in which links are extracted (link_source.go:45) after [k] requests have been read and before the next one is read.
    Extraction without errors comes to the end of the stream (bufio.Scanner).  Executions with errors of extraction and other
    interleavings of the readers are not described: None.  The tree of links and requests with the reason why reading of them has ended. *)
Definition shared_stdin (k fuel : nat) (unmarshal : str -> bool) (x : extractors) (kd : kind) (s : src) : option (option node * (list str * rerr)) :=
  match some_messages k unmarshal NewDecoder (NewFrameLimitedReader s) with
  | None => None
  | Some (ts, d, r) =>
      match xtree x kd (rest (R r)) (match fin (R r) with EOF => false | _ => true end) with
      | Done (tree, None) =>
          match session fuel unmarshal d (mkFlr (mkSrc [] (fin (R r)) (sched (R r)) (tick (R r))) (Nleft r)) with
          | Some (l, e) => Some (tree, (ts ++ l, e))
          | None => None
          end
      | _ => None
      end
  end.
