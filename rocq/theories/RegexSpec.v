(** What a regular expression matches, without any order of preference. *)
From Verif Require Import GoBase Utf8 Utf8Dec Regex RegexParse.

Inductive iter {A} (R : A -> A -> Prop) : A -> A -> Prop :=
| iter_nil s : iter R s s
| iter_cons s s1 s2 : R s s1 -> iter R s1 s2 -> iter R s s2.

Definition set_group (n : nat) (t : str) (s : mstate) : mstate := mkSt (prev s) (pos s) (rest s) ((n, t) :: caps s).

(** [msem u r s s']: the expression matches the characters between two states. *)
Fixpoint msem (u : rune -> bool) (r : re) (s s' : mstate) : Prop :=
  match r with
  | REmpty => s' = s
  | RCls c => exists x bs t, rest s = (x, bs) :: t /\ cls_match u c x = true /\ s' = mkSt (Some x) (S (pos s)) t (caps s)
  | RBegin => pos s = 0 /\ s' = s
  | REnd => rest s = [] /\ s' = s
  | RWord => xorb (word_at (prev s)) (word_at (next s)) = true /\ s' = s
  | RSeq x y => exists s1, msem u x s s1 /\ msem u y s1 s'
  | RAlt x y => msem u x s s' \/ msem u y s s'
  | RStar _ x => iter (msem u x) s s'
  | RGroup n x => exists s1, msem u x s s1 /\ s' = set_group n (between s s1) s1
  end.

(** Bodies of loops do not match the empty string. *)
Fixpoint loops_ok (r : re) : bool :=
  match r with
  | REmpty | RCls _ | RBegin | REnd | RWord => true
  | RSeq x y | RAlt x y => loops_ok x && loops_ok y
  | RStar _ x => negb (nullable x) && loops_ok x
  | RGroup _ x => loops_ok x
  end.

(** The state after [pre] in the text [pre ++ post] *)
Definition at_state (pre post : list piece) (s : mstate) : Prop :=
  pos s = length pre /\ rest s = post /\ prev s = option_map fst (last (map Some pre) None).

(** The same in terms of lists: the expression matches [l] between [pre] and [post], groups [new] are captured. *)
Inductive iterl (R : list piece -> list piece -> list piece -> list (nat * str) -> Prop)
  : list piece -> list piece -> list piece -> list (nat * str) -> Prop :=
| iterl_nil pre post : iterl R pre [] post []
| iterl_cons pre l1 l2 post n1 n2 : R pre l1 (l2 ++ post) n1 -> iterl R (pre ++ l1) l2 post n2 ->
    iterl R pre (l1 ++ l2) post (n2 ++ n1).
Definition last_rune (l : list piece) : option rune := option_map fst (last (map Some l) None).
Definition first_rune (l : list piece) : option rune := match l with [] => None | (c, _) :: _ => Some c end.
Fixpoint mlist (u : rune -> bool) (r : re) (pre l post : list piece) (new : list (nat * str)) : Prop :=
  match r with
  | REmpty => l = [] /\ new = []
  | RCls c => exists x bs, l = [(x, bs)] /\ cls_match u c x = true /\ new = []
  | RBegin => l = [] /\ pre = [] /\ new = []
  | REnd => l = [] /\ post = [] /\ new = []
  | RWord => l = [] /\ xorb (word_at (last_rune pre)) (word_at (first_rune post)) = true /\ new = []
  | RSeq x y => exists l1 l2 n1 n2, l = l1 ++ l2 /\ new = n2 ++ n1 /\ mlist u x pre l1 (l2 ++ post) n1 /\ mlist u y (pre ++ l1) l2 post n2
  | RAlt x y => mlist u x pre l post new \/ mlist u y pre l post new
  | RStar _ x => iterl (mlist u x) pre l post new
  | RGroup n x => exists n1, mlist u x pre l post n1 /\ new = (n, text_of l) :: n1
  end.
