(** Model of pkg/webextensions/manifest.go *)
From Verif Require Import GoBase Utf8 Fuzzy Path JsonStr.

(** 27-37; a nil slice is an empty list: tests in Init and "omitempty" do not distinguish them *)
Record manifest := mkManifest {
  mName : str; mDescription : str; mPath : str; mType : str;
  mOrigins : list str; mExtensions : list str; mFile : str (* ManifestPath *) }.

Definition empty {A} (l : list A) : bool := match l with [] => true | _ => false end.

(** 39-67; None is an error, the manifest is not changed then *)
Definition Init (u : rune -> rune) (m : manifest) : option manifest :=
  if Bool.eqb (empty (mOrigins m)) (empty (mExtensions m)) then None
  else if str_eqb (mName m) [] then None
  else if str_eqb (mPath m) [] || negb (IsAbs (mPath m)) then None
  else if str_eqb (mFile m) [] then None
  else
    let done := Some (mkManifest (mName m) (mDescription m) (mPath m) (b "stdio") (mOrigins m) (mExtensions m) (mFile m)) in
    if str_eqb (mFile m) (b "-") then done
    else
      let base := Base (mFile m) in
      let ext := Ext base in
      if negb (str_eqb (ToLower u ext) (b ".json")) then None
      else if negb (str_eqb (firstn (length base - length ext) base) (mName m)) then None
      else done.

(** json.MarshalIndent(m, "", "  ") for this structure *)
Definition nl : str := [ascii_of_N 10].
Definition field (name value : str) : str := b "  " ++ json_string name ++ b ": " ++ value.
Fixpoint separated (l : list str) : str :=
  match l with
  | [] => []
  | [x] => x
  | x :: l' => x ++ b "," ++ nl ++ separated l'
  end.
Definition json_list (l : list str) : str :=
  b "[" ++ nl ++ separated (map (fun x => b "    " ++ json_string x) l) ++ nl ++ b "  ]".
Definition MarshalIndent (m : manifest) : str :=
  b "{" ++ nl ++
  separated ([field (b "name") (json_string (mName m)); field (b "description") (json_string (mDescription m));
              field (b "path") (json_string (mPath m)); field (b "type") (json_string (mType m))] ++
             (if empty (mOrigins m) then [] else [field (b "allowed_origins") (json_list (mOrigins m))]) ++
             (if empty (mExtensions m) then [] else [field (b "allowed_extensions") (json_list (mExtensions m))])) ++
  nl ++ b "}".
