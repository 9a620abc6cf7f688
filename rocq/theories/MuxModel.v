(** Model of the request router of api/rest/path.go.

    A router is a tree: an association list from key to handler, where a handler is
    the application's (Leaf) or another router (Node), and the placeholder names of
    that router.  Requests carry method, URL path, raw path and path values.
    Simplifications: the 404 handler pointer is shared by the whole tree, so it is
    left out; SetPathValue is a list of settings, later ones winning. *)
From Verif Require Import GoBase.
From Coq Require Export String Ascii.
Open Scope string_scope.
Open Scope list_scope.

(** strings.Split(s, sep) for a one-byte separator *)
Fixpoint split (c : ascii) (s : string) : list string :=
  match s with
  | EmptyString => [""]
  | String a r =>
    if Ascii.eqb a c then "" :: split c r
    else match split c r with x :: l => String a x :: l | [] => [String a ""] end
  end.
(** strings.Cut(s, sep): before, after, found *)
Fixpoint cut (c : ascii) (s : string) : string * string * bool :=
  match s with
  | EmptyString => ("", "", false)
  | String a r =>
    if Ascii.eqb a c then ("", r, true)
    else let '(x, y, ok) := cut c r in (String a x, y, ok)
  end.
Definition slash : ascii := "/"%char.
Definition space : ascii := " "%char.

(** The last character and everything but it. *)
Fixpoint unsnoc (s : string) : option (string * ascii) :=
  match s with
  | EmptyString => None
  | String a r => match unsnoc r with None => Some ("", a) | Some (p, b) => Some (String a p, b) end
  end.

(** path.go:34-38: a segment of length over 2 in braces is a placeholder, stored under
    the key "" with its name; any other is stored under itself with the name "". *)
Definition key_name (this : string) : string * string :=
  match this with
  | String "{"%char r =>
    match unsnoc r with
    | Some (name, "}"%char) => if Nat.ltb 2 (String.length this) then ("", name) else (this, "")
    | _ => (this, "")
    end
  | _ => (this, "")
  end.

Section Mux.
Variable H : Type.

Inductive handler :=
| Leaf (h : H)
| Node (routes : list (string * handler)) (values : list string).
Definition routes := list (string * handler).

(** m.routes[key] *)
Fixpoint lookup (k : string) (rs : routes) : option handler :=
  match rs with
  | [] => None
  | (k', h) :: rs' => if String.eqb k k' then Some h else lookup k rs'
  end.
(** m.routes[key] = h *)
Fixpoint set (k : string) (h : handler) (rs : routes) : routes :=
  match rs with
  | [] => [(k, h)]
  | (k', h') :: rs' => if String.eqb k k' then (k', h) :: rs' else (k', h') :: set k h rs'
  end.

(** The segments Handle meets in a path: at each level one leading slash is dropped
    (30), and an empty remainder ends the walk (31).  The argument is
    strings.Split(path, "/"); [trimmed]: the leading slash was just dropped. *)
Fixpoint pat_segs (trimmed : bool) (l : list string) : list string :=
  match l with
  | [] => []
  | s :: r =>
    if String.eqb s "" then
      match r with
      | [] => []
      | _ => if trimmed then "" :: pat_segs false r else pat_segs true r
      end
    else s :: pat_segs false r
  end.

(** path.go:19-53 [Handle] with the pattern already cut into method and segments *)
Fixpoint handle_segs (method : string) (segs : list string) (h : H) (rs : routes) : routes :=
  match segs with
  | [] => set method (Leaf h) rs
  | this :: rest =>
    let '(key, name) := key_name this in
    let '(rs', vs) := match lookup key rs with Some (Node r v) => (r, v) | _ => ([], []) end in
    set key (Node (handle_segs method rest h rs')
                  (if String.eqb key "" then vs ++ [name] else vs)) rs
  end.
(** path.go:26-30 *)
Definition handle (pattern : string) (h : H) (rs : routes) : routes :=
  let '(a, b, ok) := cut space pattern in
  let '(method, path) := if ok then (a, b) else ("", a) in
  handle_segs method (pat_segs false (split slash path)) h rs.
Definition build (pats : list (string * H)) : routes :=
  fold_left (fun rs p => handle (fst p) (snd p) rs) pats [].

(** A URL path or raw path: a slash followed by these segments; [None] is the empty
    string, which ServeHTTP treats like a lone slash. *)
Definition upath := option (list string).
Definition parse_path (s : string) : upath :=
  match s with
  | EmptyString => None
  | String "/"%char r => Some (split slash r)
  | _ => Some (split slash s)
  end.
(** path.go:57-66: the first segment (the method if it is empty) and the path left *)
Definition first_seg (method : string) (p : upath) : string :=
  match p with Some (s :: _) => if String.eqb s "" then method else s | _ => method end.
Definition rest_path (p : upath) : upath :=
  match p with Some (_ :: x :: r) => Some (x :: r) | _ => Some [""] end.

Inductive result :=
| Served (h : H) (path : upath) (values : list (string * string))
| NotFound (path : upath) (values : list (string * string)).

Section Find.
Variable B : Type.
Variable f : handler -> B.
Fixpoint find (k : string) (rs : routes) : option B :=
  match rs with
  | [] => None
  | (k', h) :: rs' => if String.eqb k k' then Some (f h) else find k rs'
  end.
End Find.

(** path.go:55-88 [ServeHTTP] of a handler in the tree *)
Fixpoint serve (hd : handler) (method : string) (path raw : upath)
               (vals : list (string * string)) {struct hd} : result :=
  match hd with
  | Leaf h => Served h path vals
  | Node rs _ =>
    let this := first_seg method path in
    match find _ (fun h => serve h method (rest_path path) path vals) this rs with
    | Some r => r
    | None =>
      match find _ (fun h =>
              let names := match h with Node _ vs => vs | Leaf _ => [] end in
              serve h method (rest_path path) path (vals ++ map (fun n => (n, this)) names)) "" rs with
      | Some r => r
      | None => NotFound raw vals
      end
    end
  end.
(** A request as the application makes it: [raw] is the raw path of the URL, empty
    unless the path needs a non-default encoding. *)
Definition serve_request (rs : routes) (method path raw : string) : result :=
  serve (Node rs []) method (parse_path path) (match raw with "" => None | _ => parse_path raw end) [].
End Mux.
Arguments Leaf {H}. Arguments Node {H}. Arguments Served {H}. Arguments NotFound {H}.
Arguments lookup {H}. Arguments set {H}. Arguments handle_segs {H}. Arguments handle {H}.
Arguments build {H}. Arguments serve {H}. Arguments serve_request {H}. Arguments find {H B}.

(** http.Request.PathValue: the last setting of the name, or "" *)
Fixpoint path_value (name : string) (vals : list (string * string)) : string :=
  match vals with
  | [] => ""
  | (n, v) :: rest =>
    if existsb (fun p => String.eqb (fst p) name) rest then path_value name rest
    else if String.eqb n name then v else path_value name rest
  end.
