(** Examples for properties of replies. *)
From Coq Require Import Permutation.
From Verif Require Import GoBase GoSlice Utf8 Utf8Dec JsonSpec Json JsonProofs Flags LinkTypes Emacs Backend BackendSpec BackendWitness
  Patterns Extract ExtractSpec ExtractWitness Real ReplyJson ReplySpec ReplyProofs.

Definition x_chunk : nat -> N := fun _ => 4096%N.
Definition x_u : rune -> bool := fun _ => false.
Definition x_c : schemeRe := match UpdateRe [b "https?"] with Some c => c | None => mkSchemeRe reHeading reHeading end.
Definition x_backend : backend := mkBackend [(Org, b "1.org")] false (real x_u x_c x_chunk) (fun r => r).
Definition x_cfg : emacs_cfg := mkEmacs (mkSlice 0 1) (b "emacsclient").
Definition x_glob : glob := mkGlob [[b "-snotes"]] ONew.
Definition x_orders : orders := mkOrders [(b "https:", b "http:"); (b "http:", b "https:")] (@rev str).
Definition x_query : UrlMentionsQuery := mkMentions [b "http://a.org/x"; []] None.
Definition x_requests : list (orders * request) := [(x_orders, QMentions x_query)].
Definition x_schedule : list (nat * input) :=
  [(0, succ); (0, IRead (RData (w_lines ["** B"; "[[https://a.org/x]]"]%string) false)); (0, succ); (0, succ)].
Definition x_run := run x_cfg (initializer x_backend) x_glob (serving x_backend x_requests) x_schedule.
Definition x_reply : cnode := CInner 1 1 PFileGroup [CInner 1 1 (PFile (b "1.org")) [CInner 1 1 (PHeading None)
  [CInner 1 1 (PHeading (Some (mkHeading 1 (b "B")))) [CLeaf 1 1 [mkLink (b "https://a.org/x") [] 2]]]]].
Lemma skipped_crash : ~ forall e users bk qs g tr g' ts i o q c u sc chunk,
  booted e users g -> steps e (initializer bk) (g, serving bk qs) tr (g', ts) ->
  nth_error qs i = Some (o, QMentions q) -> fair_orders o -> replied (of_thread i tr) (PMentions c) -> ext bk = real u sc chunk ->
  exists j, MarshalJSON c = Done j.
Proof.
  intros H. destruct x_run as [[[tr g] ts]|] eqn:E; [|vm_compute in E; discriminate]. pose proof (BackendWitness.run_ok _ _ _ _ _ _ _ _ E) as St.
  destruct (H x_cfg [b "-snotes"] x_backend x_requests x_glob tr g ts 0 x_orders x_query x_reply x_u x_c x_chunk) as (j & J); [|exact St|reflexivity| | |reflexivity|].
  - split; [reflexivity|]. split; [cbn; auto|]. split; reflexivity.
  - split; [apply perm_swap|]. intros l. apply Permutation_sym, Permutation_rev.
  - vm_compute in E. injection E as <- <- <-. vm_compute. tauto.
  - vm_compute in J. discriminate.
Qed.
Lemma spaced_document : jdocument (VObj [(name (b "urls"), VArr [text (b "x&")])]) (b " {""ur\u006cs"" : [ ""x&"" ] } ").
Proof.
  assert (SP : space (b " ")) by (constructor; [vm_compute; tauto|constructor]). assert (S0 : space []) by constructor.
  exists (b " "), (b "{""ur\u006cs"" : [ ""x&"" ] }"), (b " "). split; [exact SP|]. split; [exact SP|]. split; [|reflexivity].
  change (b "{""ur\u006cs"" : [ ""x&"" ] }") with (b "{" ++ ([] ++ b """ur\u006cs""" ++ b " " ++ b ":" ++ b " " ++ b "[ ""x&"" ]" ++ b " ") ++ b "}").
  apply jt_obj. apply jm_one; try assumption.
  - exists (b "ur\u006cs"). split; [|reflexivity]. change (name (b "urls")) with [117%N; 114%N; 108%N; 115%N].
    change (b "ur\u006cs") with (utf8 117%N ++ utf8 114%N ++ backslash :: "u"%char :: b "006c" ++ utf8 115%N ++ []).
    apply jc_plain; [reflexivity|vm_compute; discriminate..|]. apply jc_plain; [reflexivity|vm_compute; discriminate..|]. apply jc_code; [|vm_compute; intros [X Y]; apply X; reflexivity|].
    + exists "0"%char, "0"%char, "6"%char, "c"%char, 0%N, 0%N, 6%N, 12%N. split; [reflexivity|]. vm_compute. intuition congruence.
    + apply jc_plain; [reflexivity|vm_compute; discriminate..|]. constructor.
  - change (b "[ ""x&"" ]") with (b "[" ++ (b " " ++ b """x&""" ++ b " ") ++ b "]"). apply jt_arr. apply ji_one; try assumption. apply jt_str.
    exists (b "x&"). split; [|reflexivity]. change (runes_of (b "x&")) with [120%N; 38%N]. change (b "x&") with (utf8 120%N ++ utf8 38%N ++ []).
    apply jc_plain; [reflexivity|vm_compute; discriminate..|]. apply jc_plain; [reflexivity|vm_compute; discriminate..|]. constructor.
Qed.
