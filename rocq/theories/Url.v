(** Model of pkg/burl_url/url.go. *)
From Verif Require Import GoBase Utf8.
Local Open Scope N_scope.

Definition r_slash : rune := 47.     (* '/' *)
Definition r_question : rune := 63.  (* '?' *)
Definition r_amp : rune := 38.       (* '&' *)
Definition r_hash : rune := 35.      (* '#' *)

(** url.go:49-51 and 55-57: [if i > 0 && slice[i-1] == c { i-- }] *)
Definition strip_once (c : rune) (slice : list rune) (i : nat) : nat :=
  match i with
  | O => O
  | S j => if nth j slice 0 =? c then j else S j
  end.

(** url.go:52-54 and 58-60: [for i > 0 && slice[i-1] == c { i-- }] *)
Fixpoint strip_while (c : rune) (slice : list rune) (i : nat) : nat :=
  match i with
  | O => O
  | S j => if nth j slice 0 =? c then strip_while c slice j else S j
  end.

(** url.go:62-64: [for ; i <= n; i++ { retval = append(retval, string(slice[:i])) }] *)
Definition prefixes_from (slice : list rune) (i n : nat) : list str :=
  map (fun k => string_of (firstn k slice)) (seq i (S n - i)).

(** url.go:35-66 RedundantTailVariants.  [slice] is the list of runes of the
    string, [n] its length (the loop 43-46 fills it; [n <= l] is [length_runes]). *)
Definition RedundantTailVariants (url : str) : list str :=
  match url with
  | [] => []                                                  (* 38-40 *)
  | _ :: _ =>
      let slice := runes_of url in                            (* 41-47 *)
      let n := length slice in
      let i := strip_once r_hash slice n in                   (* 49-51 *)
      let i := strip_while r_amp slice i in                   (* 52-54 *)
      let i := strip_once r_question slice i in               (* 55-57 *)
      let i := strip_while r_slash slice i in                 (* 58-60 *)
      prefixes_from slice i n                                 (* 62-64 *)
  end.

(** url.go:21-24: the map [replacements], its entries in some order. *)
Definition replacements : list (str * str) :=
  [(b "http:", b "https:"); (b "https:", b "http:")].

(** url.go:26-30: body of the loop over the map; [entries] is the order in
    which Go happens to iterate over the map. *)
Definition replacement_variants (url : str) (kv : str * str) : list str :=
  let '(k, v) := kv in
  if has_prefix url k then RedundantTailVariants (v ++ skipn (length k) url) else [].

(** url.go:20-32 UrlVariants *)
Definition UrlVariants (entries : list (str * str)) (url : str) : list str :=
  fold_left (fun retval kv => retval ++ replacement_variants url kv)
            entries (RedundantTailVariants url).
