(** ExtractUrls, /repo/pkg/burl_links/extract_txt.go:80-101, and bufio.Scanner with ScanWords as the split function
    (Go standard library, not code of /repo). *)
From Verif Require Import GoBase Utf8 Utf8Dec Regex Patterns Fuzzy LinkTypes Emacs Extract Scanner.
Local Open Scope N_scope.

(** bufio.ScanWords(data, atEOF), used by extract_txt.go:84: the token and data that are left.  Leading white space is
    skipped even if there is no token. *)
Fixpoint word_end (l : list (rune * str)) : option (str * list (rune * str)) :=
  match l with
  | [] => None
  | (r, bs) :: t => if IsSpace r then Some ([], t) else option_map (fun p => (bs ++ fst p, snd p)) (word_end t)
  end.
Definition word_split (data : str) (atEOF : bool) : option str * str :=
  let l := skip_space (pieces data) in
  match word_end l with
  | Some (w, t) => (Some w, concat (map snd t))
  | None => match l with
            | [] => (None, [])
            | _ => let w := concat (map snd l) in if atEOF then (Some w, []) else (None, w)
            end
  end.
(** One iteration of the loop of Scanner.Scan, see [Scanner.scan_step]; here the split function may consume data without
    a token. *)
Definition word_step (broken : bool) (chunk : nat -> N) (s : scanner) : sstep :=
  let atEOF := match serror s with Some _ => true | None => false end in
  let '(t, w) := if (0 <? len (win s)) || atEOF then word_split (win s) atEOF else (None, win s) in
  let s := mkScan w (start s + (len (win s) - len w)) (bufLen s) (serror s) (left_ s) (reads s) in
  match t with
  | Some t => SToken t s
  | None =>
      match serror s with
      | Some _ => SStop s
      | None =>
          let endp := start s + len (win s) in
          let start1 := if (0 <? start s) && ((endp =? bufLen s) || (bufLen s / 2 <? start s)) then 0 else start s in
          let full := start1 + len (win s) =? bufLen s in
          if full && (maxTokenSize <=? bufLen s) then SStop (mkScan (win s) start1 (bufLen s) (Some STooLong) (left_ s) (reads s))
          else
            let newSize := if bufLen s =? 0 then startBufSize else bufLen s * 2 in
            let newSize := if maxTokenSize <? newSize then maxTokenSize else newSize in
            let '(start2, size2) := if full then (0, newSize) else (start1, bufLen s) in
            match left_ s with
            | [] => SMore (mkScan (win s) start2 size2 (Some (if broken then SRead else SEof)) [] (S (reads s)))
            | _ =>
                let n := N.to_nat (N.min (N.min (N.max 1 (chunk (reads s))) (size2 - (start2 + len (win s)))) (len (left_ s))) in
                SMore (mkScan (win s ++ firstn n (left_ s)) start2 size2 None (skipn n (left_ s)) (S (reads s)))
            end
      end
  end.
(** Tokens and scanner.Err(), see [Scanner.scan_loop] *)
Fixpoint word_scan (fuel : nat) (broken : bool) (chunk : nat -> N) (s : scanner) : option (list str * option serr) :=
  match fuel with
  | O => None
  | S fuel =>
      match word_step broken chunk s with
      | SToken t s => option_map (fun p => (t :: fst p, snd p)) (word_scan fuel broken chunk s)
      | SMore s => word_scan fuel broken chunk s
      | SStop s => Some ([], match serror s with Some SEof => None | e => e end)
      end
  end.
Definition scan_words (broken : bool) (chunk : nat -> N) (content : str) : option (list str * option serr) :=
  word_scan (2 * length content + 3) broken chunk (mkScan [] 0 0 None content 0).

(** extract_txt.go:91-97.  [cb]: the result depends on matches passed to the callback earlier; the new list of matches.
    [break] at 94 leaves the loop over matches of the word only. *)
Fixpoint url_matches (cb : list rmatch -> rmatch -> bool) (ms : list rmatch) (done : list rmatch) : list rmatch :=
  match ms with
  | [] => done
  | m :: ms' =>
      if MatchIsUrl m then
        if cb done m then url_matches cb ms' (done ++ [m]) else done ++ [m]
      else url_matches cb ms' done
  end.
(** 88-99.  Words are separated before the first call, so the callback can not affect the file. *)
Fixpoint url_words (u : rune -> bool) (cb : list rmatch -> rmatch -> bool) (words : list str) (done : list rmatch) : list rmatch :=
  match words with
  | [] => done
  | w :: words' => url_words u cb words' (url_matches cb (FindAll u reUrl w) done)
  end.
(** 82-101: calls of the callback and the returned error *)
Definition ExtractUrls (u : rune -> bool) (cb : list rmatch -> rmatch -> bool) (chunk : nat -> N) (content : str) (broken : bool)
  : outcome (list rmatch * option berr) :=
  match scan_words broken chunk content with
  | Some (words, e) => Done (url_words u cb words [], scan_error e)
  | None => Panic
  end.
