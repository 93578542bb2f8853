(** [versions/meta.py], [versions/versioned.py], [versions/main.py] and
    [versions/representation.py]. *)

From Coq Require Import List ZArith NArith String Bool.
From Verif Require Import Py Segments Version Regex Patterns VersionSets Operators Specifiers Parsers.
Import ListNotations.
Open Scope Z_scope.

(** meta.py:14 *)
Definition FINAL : pstr := lit "final".

(** meta.py:16-26, as a function of [sys.version_info] *)
Definition python_version_info (mj mn mc : Z) (ph : pstr) (x : Z) : result version :=
  if str_eqb ph FINAL then from_parts [mj; mn; mc] None None None None None
  else
    let* t := tag_new PreTag ph x in
    let* v := from_parts [mj; mn; mc] None (Some t) None None None in
    normalize v.

(** versioned.py:60-71; an item is modelled by its [__version__], a string.  See
    [Versioned.v] for other items and the caches. *)
Definition get_version (version : pstr) : result Version.version := parse_version version.

(** __init__.py:27, meta.py:11 *)
Definition VERSION_STRING : pstr := lit "2.1.2".
Definition version_info : result version := get_version VERSION_STRING.

(** main.py:5-25: what the command prints, given the two versions and the
    flags.  Simplification: option parsing and the final newline are click's. *)
Definition main (info python_info : version) (raw python normal : bool) : result pstr :=
  let v := if python then python_info else info in
  let name := if python then lit "python" else lit "versions" in
  let* s := (if normal then to_pep440_string v else Ok (to_string v)) in
  Ok (if raw then s else name ++ lit " " ++ s).

(** representation.py:9-19, string.py:129-136.  [name] is the name of the class
    and [wrap] its [WRAP]. *)
Definition represent (wrap : bool) (name s : pstr) : pstr :=
  lit "<" ++ name ++ lit " " ++ (if wrap then lit "(" ++ s ++ lit ")" else s) ++ lit ">".

Definition version_repr (v : version) : pstr := represent true (lit "Version") (to_string v).
