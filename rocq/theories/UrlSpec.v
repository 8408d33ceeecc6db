(** Specification of URL variants, independent of the model of url.go. *)
From Verif Require Import GoBase Utf8.

(** Redundant tail: any number of slashes, optional '?', any number of
    ampersands, optional '#' ("Consider URLs ending with /?&# as equivalent"). *)
Definition redundant_tail (t : str) : Prop :=
  exists slashes amps question hash,
    t = repeat "/"%char slashes ++ question ++ repeat "&"%char amps ++ hash
    /\ (question = [] \/ question = ["?"%char])
    /\ (hash = [] \/ hash = ["#"%char]).

(** [v] is [url] with a part of its redundant tail removed. *)
Definition tail_variant (url v : str) : Prop :=
  exists t, url = v ++ t /\ redundant_tail t.

(** [url'] is [url] with http: and https: exchanged. *)
Definition other_scheme (url url' : str) : Prop :=
  exists rest, (url = b "http:" ++ rest /\ url' = b "https:" ++ rest)
            \/ (url = b "https:" ++ rest /\ url' = b "http:" ++ rest).

(** [sanitized s s']: [s'] is [s] in which every byte that does not belong to
    a well formed UTF-8 sequence is replaced with U+FFFD (bytes EF BF BD). *)
Inductive sanitized : str -> str -> Prop :=
| san_nil : sanitized [] []
| san_rune r s s' :
    valid_rune r = true -> sanitized s s' ->
    sanitized (strN (encode1 r) ++ s) (strN (encode1 r) ++ s')
| san_byte c s s' :
    (forall r u, valid_rune r = true -> c :: s <> strN (encode1 r) ++ u) ->
    sanitized s s' ->
    sanitized (c :: s) (strN [239; 191; 189]%N ++ s').
