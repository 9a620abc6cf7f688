(** * api/rest/host.go:603-629 [addCORS], and what calls it: 646-652 and 939-946 (OPTIONS),
    659-660 (an operation), 372 and 407 (the pages of the API and its examples). 947-952,
    the form of a resource, does not call it. api/cors/cors.go:9-22. *)
From Coq Require Import String DecimalString.
From Verif Require Import GoBase GoText HandModel.
Open Scope list_scope.
Open Scope Z_scope.

(** cors.go:9-16 *)
Record access_control := {
  allow_origin : bytes; expose_headers : bytes; max_age : Z; allow_credentials : bool; allow_methods : bytes; allow_headers : bytes }.
(** The parts of a request an authenticator looks at here: its method, its Origin, and what
    a preflight asks for. *)
Record request := { r_method : bytes; r_origin : bytes; r_asks_method : option bytes; r_asks_headers : list bytes }.
(** api.Function: the operation at a path, or the zero Function *)
Definition function := option (bytes * bytes).
(** An authenticator: [None] when there is none or it is no cors.Authenticator. *)
Definition policy := option (request -> function -> access_control).

(** http.Header, each key with one value; Set replaces. The keys are constants in canonical
    form (net/textproto leaves them as they are). *)
Definition header := list (bytes * bytes).
Definition set_header (k v : bytes) (h : header) : header := (k, v) :: filter (fun p => negb (beq (fst p) k)) h.
Fixpoint get_header (k : bytes) (h : header) : option bytes :=
  match h with [] => None | (k', v) :: r => if beq k' k then Some v else get_header k r end.
Definition itoa (n : Z) : bytes := text (NilZero.string_of_int (Z.to_int n)).
Definition when (b : bool) (f : header -> header) (h : header) : header := if b then f h else h.
Definition is_empty (s : bytes) : bool := match s with [] => true | _ => false end.

(** host.go:603-629 *)
Definition add_cors (auth : policy) (r : request) (fn : function) (h : header) : header :=
  match auth with
  | None => h
  | Some control =>
    let c := control r fn in
    when (negb (max_age c =? 0)) (set_header (text "Access-Control-Max-Age") (itoa (max_age c)))
    (when (negb (is_empty (expose_headers c))) (set_header (text "Access-Control-Expose-Headers") (expose_headers c))
    (when (negb (is_empty (allow_methods c))) (set_header (text "Access-Control-Allow-Methods") (allow_methods c))
    (when (negb (is_empty (allow_headers c))) (set_header (text "Access-Control-Allow-Headers") (allow_headers c))
    (when (allow_credentials c) (set_header (text "Access-Control-Allow-Credentials") (text "true"))
    (when (negb (is_empty (allow_origin c))) (set_header (text "Access-Control-Allow-Origin") (allow_origin c)) h)))))
  end.

Record response := { status : Z; headers : header }.
(** The answer of a handler to a request for [path]. [own]: the status and headers of what
    the handler then does: the function, the errors of its authentication, the page. *)
Definition answer_of (auth : policy) (path : bytes) (own : response) (r : request) (h : handler) : response :=
  match h with
  | HCors => {| status := 200; headers := add_cors auth r (Some (path, text "GET")) [] |}
  | HNoContent => {| status := 204; headers := add_cors auth r None [] |}
  | HOp p m => {| status := status own; headers := headers own ++ add_cors auth r (Some (p, m)) [] |}
  | HIndex | HExample => {| status := status own; headers := headers own ++ add_cors auth r None [] |}
  | HForm => own
  end.
(** A path without a handler for the method: the mux answers not found itself
    (path.go:195-215), and knows nothing of the authenticator. *)
Definition answer (auth : policy) (order : spec) (path : bytes) (own : response) (r : request) : response :=
  match serving (pattern (r_method r) path) (of_resources order) with
  | Some h => answer_of auth path own r h
  | None => {| status := 404; headers := [] |}
  end.
