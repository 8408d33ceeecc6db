(** Regular expressions of pkg/burl_links: extract_org.go, urlmatch_txt.go. *)
From Verif Require Import GoBase Utf8 Utf8Dec Regex RegexParse.

Definition LF : str := [ascii_of_nat 10].
Definition TAB : str := [ascii_of_nat 9].

(** extract_org.go:28 *)
Definition reHeadingStr : str := b "^(\*+)\s+(\S(?:.*\S)?)?$".
(** 33 *)
Definition SchemeVariants : list str := [b "doi"; b "https?"; b "mid"].
(** 36 *)
Definition reBracketStr : str :=
  b "\[\[((?:[^\]\[]|\\(?:\\\\)*[\]\[]|\\+[^\]\[])+)](?:\[((?:.|" ++ LF ++ b ")+?)\])?\]".
(** 37 *)
Definition reAngleSuffixStr : str :=
  b "[^>" ++ LF ++ b "]*(?:" ++ LF ++ b "[ " ++ TAB ++ b "]*[^> " ++ TAB ++ LF ++ b "][^> " ++ LF ++ b "]*)*".
(** 38 *)
Definition reNotSpecial : str := b "[^][ " ++ TAB ++ LF ++ b "(\)<>]".
Definition reParens : str := b "\((?:" ++ reNotSpecial ++ b "|\(" ++ reNotSpecial ++ b "*\))*\)".
Definition rePlainSuffixStr : str :=
  b "(?:" ++ reNotSpecial ++ b "|" ++ reParens ++ b ")+(?:[^[:punct:] " ++ TAB ++ LF ++ b "]|/|" ++ reParens ++ b ")".

(** strings.Join(l, "|") *)
Fixpoint join (l : list str) : str :=
  match l with
  | [] => []
  | [x] => x
  | x :: l' => x ++ b "|" ++ join l'
  end.

(** 41-54; [unique]: the loop with the map of schemes that are added already *)
Definition drop_colon (s : str) : str := if has_suffix s (b ":") then firstn (length s - 1) s else s.
Fixpoint unique (set : list str) (l : list str) : list str :=
  match l with
  | [] => []
  | x :: l' =>
      let scheme := drop_colon x in
      if (negb (str_eqb scheme []) && negb (existsb (str_eqb scheme) set))%bool
      then scheme :: unique (scheme :: set) l'
      else unique set l'
  end.
Definition MakeSchemeReStr (variants : list str) : str := join (unique [] variants).

(** 56-60 *)
Definition MakeLinkReStr (schemeStr : str) : str :=
  let reAngleStr := b "<(" ++ schemeStr ++ b "):(" ++ reAngleSuffixStr ++ b ")>" in
  let rePlainStr := b "\b(" ++ schemeStr ++ b "):(" ++ rePlainSuffixStr ++ b ")" in
  reBracketStr ++ b "|" ++ reAngleStr ++ b "|" ++ rePlainStr.

(** 35: "^" + reSchemeStr + ":" *)
Definition MakeReScheme (schemeStr : str) : str := b "^" ++ schemeStr ++ b ":".

(** 82 *)
Definition reSetPrefixStr : str := b "^(?:(?i)[a-z][a-z0-9]*(?:[-+][a-z0-9]+)*)(:[^" ++ LF ++ b "]*)?$".

(** urlmatch_txt.go:19-28 *)
Definition UrlPatternSchemaSlashes : str := b "(?:([[:alpha:]]+:(\/\/)?))".
Definition patDomainComponent : str := b "(?:[\p{L}0-9][\p{L}0-9_-]{0,62})?[\p{L}0-9]".
Definition patTopLevelDomain : str := b "(?:\p{L}){2,64}\.?".
Definition UrlPatternDomainTLD : str := b "((?:" ++ patDomainComponent ++ b "\.){0,16}(" ++ patTopLevelDomain ++ b "))".
Definition patPathComponent : str := b "(?:[\p{L}0-9.@,~_-]|(?:%[0-9a-fA-F]{2}))*".
Definition patPath : str := b "((?:/" ++ patPathComponent ++ b ")*)".
Definition UrlPatternFull : str := UrlPatternSchemaSlashes ++ b "?" ++ UrlPatternDomainTLD ++ b "?" ++ patPath ++ b "?".
