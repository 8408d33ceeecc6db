(** Specification of writing of generated files *)
From Verif Require Import GoBase Path FileSys.
Local Open Scope N_scope.

(** a normalised absolute path of something inside of a directory *)
Definition normal (p : str) : Prop := IsAbs p = true /\ Clean p = p /\ p <> b "/".

Definition same_files (s0 s : state) : Prop := forall x, fs s x = fs s0 x.

(** [t] did not exist before and it is in the same directory *)
Definition fresh (s0 : state) (path t : str) : Prop :=
  fs s0 t = None /\ t <> path /\ normal t /\ Dir t = Dir path.

(** The destination is as it was or it is complete.  If it has had the requested content (or it begins with it)
    then owner's read and execute bits (0500 is 320) may be added. *)
Definition bits_added (s0 s : state) (path content : str) (mode : N) : Prop :=
  exists extra m, fs s0 path = Some (File (content ++ extra) m) /\ N.land m 320 = 0 /\ N.land mode 320 <> 0 /\
    fs s path = Some (File (content ++ extra) (N.lor m 320)).
Definition intact_or_complete (s0 s : state) (path content : str) (mode : N) : Prop :=
  fs s path = fs s0 path \/ fs s path = Some (File content mode) \/ bits_added s0 s path content mode.

(** The exception: the file is longer than the requested content of exactly 4096 bytes. *)
Definition taken_for_same (s0 : state) (path content : str) : Prop :=
  length content = (64 * 64)%nat /\ exists extra m, extra <> [] /\ fs s0 path = Some (File (content ++ extra) m).

(** Only the destination and at most one new file, that has a beginning of the content, may be affected. *)
Definition others_untouched (s0 s : state) (path content : str) : Prop :=
  (forall x, x <> path -> fs s x = fs s0 x) \/
  exists t c1 c2 m, fresh s0 path t /\ content = c1 ++ c2 /\ fs s t = Some (File c1 m) /\
    forall x, x <> path -> x <> t -> fs s x = fs s0 x.
