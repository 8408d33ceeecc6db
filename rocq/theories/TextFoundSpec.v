(** URLs that have to be found in words of text files. *)
From Verif Require Import GoBase Utf8 FuzzySpec TextSpec.

(** Parts of a URL: scheme, domain, path.  A scheme without a domain is followed by a path; if there are no slashes after
    the colon then the path does not start from two of them. *)
Definition full_url (u : rune -> bool) (s d p : list rune) : Prop :=
  path u p /\
  ((schema s /\ exists cs t, domain u cs t d) \/
   (schema s /\ d = [] /\ p <> [] /\ ((exists x, s = x ++ [47%N]) \/ forall q, p <> 47%N :: 47%N :: q)) \/
   (s = [] /\ exists cs t, cs <> [] /\ domain u cs t d)).
(** What may follow: the first character can not continue the URL with the path [p]. *)
Definition ended (u : rune -> bool) (p rest : list rune) : Prop :=
  match rest with
  | [] => True
  | r :: _ => ~ alnum u r /\ ~ In r [46; 45; 95; 47]%N /\ (p <> [] -> ~ In r [64; 44; 126; 37]%N)
  end.
(** What may precede: either nothing or a text ending with a character that does not belong to URLs, then characters a
    URL can not start from. *)
Definition separator (u : rune -> bool) (r : rune) : Prop := ~ alnum u r /\ ~ In r [46; 45; 95; 47; 64; 44; 126; 37; 58]%N.
Definition started (u : rune -> bool) (before : list rune) : Prop :=
  exists x y, before = x ++ y /\ (x = [] \/ exists x' c, x = x' ++ [c] /\ separator u c) /\ Forall (fun r => ~ alnum u r /\ r <> 47%N) y.
(** The URL consisting of these characters is in the word. *)
Definition word_has (u : rune -> bool) (w : str) (s d p : list (rune * str)) : Prop :=
  exists before after, characters w (before ++ s ++ d ++ p ++ after) /\
    full_url u (map fst s) (map fst d) (map fst p) /\ started u (map fst before) /\ ended u (map fst p) (map fst after).
