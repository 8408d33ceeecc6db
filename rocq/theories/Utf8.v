(** UTF-8 as implemented by the Go language: [range] over a string, conversion
    of [[]rune] to string.  The Go specification/`unicode/utf8` package, not /repo
    code; used by pkg/burl_url/url.go:43-46,63 and pkg/burl_fuzzy/approsearch.go:109-110. *)
From Verif Require Import GoBase.
Local Open Scope N_scope.

Definition rune := N.
Definition rune_error : rune := 65533.   (* U+FFFD *)

Definition inr (lo hi x : N) : bool := (lo <=? x) && (x <=? hi).

(** Continuation byte. *)
Definition cont (x : N) : bool := inr 128 191 x.

(** Accepted range of the second byte for a leading byte of a 3 or 4 byte
    sequence (tables [first] and [acceptRanges] in unicode/utf8). *)
Definition second3 (b0 b1 : N) : bool :=
  if b0 =? 224 then inr 160 191 b1
  else if b0 =? 237 then inr 128 159 b1
  else cont b1.
Definition second4 (b0 b1 : N) : bool :=
  if b0 =? 240 then inr 144 191 b1
  else if b0 =? 244 then inr 128 143 b1
  else cont b1.

(** Runes yielded by [for _, r := range s]: an invalid or truncated sequence
    yields U+FFFD and advances by one byte. *)
Fixpoint decodeN (s : list N) : list rune :=
  match s with
  | [] => []
  | b0 :: s1 =>
      if b0 <? 128 then b0 :: decodeN s1
      else if inr 194 223 b0 then
        match s1 with
        | b1 :: s2 =>
            if cont b1 then ((b0 - 192) * 64 + (b1 - 128)) :: decodeN s2
            else rune_error :: decodeN s1
        | [] => [rune_error]
        end
      else if inr 224 239 b0 then
        match s1 with
        | b1 :: ((b2 :: s3) as s2) =>
            if second3 b0 b1 && cont b2
            then ((b0 - 224) * 4096 + (b1 - 128) * 64 + (b2 - 128)) :: decodeN s3
            else rune_error :: decodeN s1
        | _ => rune_error :: decodeN s1
        end
      else if inr 240 244 b0 then
        match s1 with
        | b1 :: b2 :: b3 :: s4 =>
            if second4 b0 b1 && cont b2 && cont b3
            then ((b0 - 240) * 262144 + (b1 - 128) * 4096 + (b2 - 128) * 64 + (b3 - 128)) :: decodeN s4
            else rune_error :: decodeN s1
        | _ => rune_error :: decodeN s1
        end
      else rune_error :: decodeN s1
  end.

(** A rune that has UTF-8 encoding (Unicode scalar value). *)
Definition valid_rune (r : rune) : bool :=
  (r <? 55296) || inr 57344 1114111 r.

(** utf8.EncodeRune for a scalar value. *)
Definition encode1 (r : rune) : list N :=
  if r <? 128 then [r]
  else if r <? 2048 then [192 + r / 64; 128 + r mod 64]
  else if r <? 65536 then [224 + r / 4096; 128 + (r / 64) mod 64; 128 + r mod 64]
  else [240 + r / 262144; 128 + (r / 4096) mod 64; 128 + (r / 64) mod 64; 128 + r mod 64].

(** utf8.AppendRune: other values are replaced with U+FFFD. *)
Definition encode_rune (r : rune) : list N :=
  if valid_rune r then encode1 r else encode1 rune_error.

Definition bytesN (s : str) : list N := map N_of_ascii s.
Definition strN (l : list N) : str := map ascii_of_N l.

(** [[]rune(s)] *)
Definition runes_of (s : str) : list rune := decodeN (bytesN s).
(** [string(runes)] *)
Definition string_of (rs : list rune) : str := strN (concat (map encode_rune rs)).

(** Independent definition of well-formed UTF-8: an encoding of some list of
    Unicode scalar values. *)
Definition valid_utf8 (s : str) : Prop :=
  exists rs, Forall (fun r => valid_rune r = true) rs /\ s = strN (concat (map encode1 rs)).
