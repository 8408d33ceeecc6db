(** bufio.Scanner with ScanLines and ScanWords: Go standard library, not code of /repo; used by
    pkg/burl_links/extract_org.go:131-134 and 194-213, extract_txt.go:47-55 and 105-120.
    A file is its content and whether reading fails after that; an operating system decides how many bytes are
    returned by each Read (at least one if there are any). *)
From Verif Require Import GoBase Utf8 Utf8Dec Fuzzy.
Local Open Scope N_scope.

Definition newline : ascii := ascii_of_nat 10.
Definition len (s : str) : N := N.of_nat (length s).

(** Text before the first newline and after it *)
Fixpoint cut (s : str) : option (str * str) :=
  match s with
  | [] => None
  | c :: t => if Ascii.eqb c newline then Some ([], t) else option_map (fun p => (c :: fst p, snd p)) (cut t)
  end.
(** bufio dropCR *)
Definition dropCR (s : str) : str := if has_suffix s [ascii_of_nat 13] then firstn (length s - 1) s else s.

(** bufio.ScanLines: token and data that are left; None: more data are necessary *)
Definition ScanLines (data : str) (atEOF : bool) : option (str * str) :=
  match data, atEOF with
  | [], true => None
  | _, _ =>
      match cut data with
      | Some (line, t) => Some (dropCR line, t)
      | None => if atEOF then Some (dropCR data, []) else None
      end
  end.

Inductive serr := SEof | SRead | STooLong.
(** Fields of bufio.Scanner: [win] = buf[start:end], [start], [bufLen] = len(buf), [serror]; the file: [left], [broken];
    the number of calls of Read *)
Record scanner := mkScan { win : str; start : N; bufLen : N; serror : option serr; left_ : str; reads : nat }.
Definition maxTokenSize : N := 65536.
Definition startBufSize : N := 4096.

Inductive sstep := SToken (t : str) (s : scanner) | SMore (s : scanner) | SStop (s : scanner).
(** One iteration of the loop of Scanner.Scan.  [chunk]: sizes of blocks preferred by the operating system. *)
Definition scan_step (broken : bool) (chunk : nat -> N) (s : scanner) : sstep :=
  let atEOF := match serror s with Some _ => true | None => false end in
  match (if (0 <? len (win s)) || atEOF then ScanLines (win s) atEOF else None) with
  | Some (t, w) => SToken t (mkScan w (start s + (len (win s) - len w)) (bufLen s) (serror s) (left_ s) (reads s))
  | None =>
      match serror s with
      | Some _ => SStop s
      | None =>
          let endp := start s + len (win s) in
          let start1 := if (0 <? start s) && ((endp =? bufLen s) || (bufLen s / 2 <? start s)) then 0 else start s in
          let full := start1 + len (win s) =? bufLen s in
          if full && (maxTokenSize <=? bufLen s) then SStop (mkScan (win s) start1 (bufLen s) (Some STooLong) (left_ s) (reads s))
          else
            let newSize := if bufLen s =? 0 then startBufSize else bufLen s * 2 in
            let newSize := if maxTokenSize <? newSize then maxTokenSize else newSize in
            let '(start2, size2) := if full then (0, newSize) else (start1, bufLen s) in
            match left_ s with
            | [] => SMore (mkScan (win s) start2 size2 (Some (if broken then SRead else SEof)) [] (S (reads s)))
            | _ =>
                let n := N.to_nat (N.min (N.min (N.max 1 (chunk (reads s))) (size2 - (start2 + len (win s)))) (len (left_ s))) in
                SMore (mkScan (win s ++ firstn n (left_ s)) start2 size2 None (skipn n (left_ s)) (S (reads s)))
            end
      end
  end.
(** Tokens returned by successful calls of Scan and the error; None: the fuel is not sufficient *)
Fixpoint scan_loop (fuel : nat) (broken : bool) (chunk : nat -> N) (s : scanner) : option (list str * option serr) :=
  match fuel with
  | O => None
  | S fuel =>
      match scan_step broken chunk s with
      | SToken t s => option_map (fun p => (t :: fst p, snd p)) (scan_loop fuel broken chunk s)
      | SMore s => scan_loop fuel broken chunk s
      | SStop s => Some ([], match serror s with Some SEof => None | e => e end)
      end
  end.
(** Lines of a file and scanner.Err() *)
Definition scan_lines (broken : bool) (chunk : nat -> N) (content : str) : option (list str * option serr) :=
  scan_loop (2 * length content + 3) broken chunk (mkScan [] 0 0 None content 0).

(** bufio.ScanWords(data, true): word and data that are left.  isSpace of bufio is the same set as unicode.IsSpace. *)
Fixpoint skip_space (l : list (rune * str)) : list (rune * str) :=
  match l with
  | (r, _) :: t => if IsSpace r then skip_space t else l
  | [] => []
  end.
Fixpoint word_loop (l : list (rune * str)) : str * list (rune * str) :=
  match l with
  | [] => ([], [])
  | (r, bs) :: t => if IsSpace r then ([], t) else let '(w, t') := word_loop t in (bs ++ w, t')
  end.
Definition ScanWords (data : str) : str * str :=
  let '(w, t) := word_loop (skip_space (pieces data)) in (w, concat (map snd t)).
