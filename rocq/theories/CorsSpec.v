(** * What C151 says: the CORS protocol (fetch.spec.whatwg.org, "CORS protocol",
    "CORS-preflight fetch"), from the side of the browser *)
From Coq Require Import String.
From Verif Require Import GoBase GoText CorsModel.
Open Scope list_scope.
Open Scope Z_scope.

(** A script's request to another origin: the method, the names of the headers that are not
    CORS-safelisted (in lower case), and whether credentials go with it. *)
Record fetch := { f_origin : bytes; f_method : bytes; f_unsafe : list bytes; f_credentials : bool }.
(** "extracting header list values": the parts between commas, without white space around *)
Definition values (v : bytes) : list bytes := map (fun p => trim p (text " 	")) (split v 44).
Definition lower (s : bytes) : bytes := map (fun b => if (65 <=? b) && (b <=? 90) then b + 32 else b) s.
Definition safelisted_method (m : bytes) : bool := existsb (beq m) [text "GET"; text "HEAD"; text "POST"].
Definition needs_preflight (f : fetch) : bool :=
  negb (safelisted_method (f_method f)) || match f_unsafe f with [] => false | _ => true end.

(** What the rules of a server admit; [None]: the server says nothing of it. *)
Definition admits_origin (origin : option bytes) (credentials : option bytes) (f : fetch) : bool :=
  match origin with
  | None => false
  | Some o => (beq o (text "*") && negb (f_credentials f)) ||
              (beq o (f_origin f) && (negb (f_credentials f) || match credentials with Some c => beq c (text "true") | None => false end))
  end.
Definition listed (l : option bytes) : list bytes := match l with Some v => values v | None => [] end.
Definition admits_method (methods : option bytes) (f : fetch) : bool :=
  existsb (beq (f_method f)) (listed methods) || safelisted_method (f_method f) ||
  (negb (f_credentials f) && existsb (beq (text "*")) (listed methods)).
Definition admits_header (hs : option bytes) (f : fetch) (name : bytes) : bool :=
  existsb (beq name) (map lower (listed hs)) ||
  (negb (f_credentials f) && existsb (beq (text "*")) (listed hs) && negb (beq name (text "authorization"))).

(** The browser: the preflight, and the request itself. *)
Definition preflight_of (f : fetch) : request :=
  {| r_method := text "OPTIONS"; r_origin := f_origin f; r_asks_method := Some (f_method f); r_asks_headers := f_unsafe f |}.
Definition request_of (f : fetch) : request :=
  {| r_method := f_method f; r_origin := f_origin f; r_asks_method := None; r_asks_headers := [] |}.
Definition header_of (r : response) (k : string) : option bytes := get_header (text k) (headers r).
Definition cors_check (f : fetch) (r : response) : bool :=
  admits_origin (header_of r "Access-Control-Allow-Origin") (header_of r "Access-Control-Allow-Credentials") f.
Definition preflight_ok (f : fetch) (r : response) : bool :=
  cors_check f r && (200 <=? status r) && (status r <=? 299) &&
  admits_method (header_of r "Access-Control-Allow-Methods") f &&
  forallb (admits_header (header_of r "Access-Control-Allow-Headers") f) (f_unsafe f).
(** Whether the script gets the answer: the preflight goes through when there has to be
    one, and the answer itself may be read. *)
Definition readable (server : request -> response) (f : fetch) : bool :=
  (negb (needs_preflight f) || preflight_ok f (server (preflight_of f))) && cors_check f (server (request_of f)).

(** What the authenticator of an API decides about the function the script calls. An empty
    text of AccessControl is one that is not set. *)
Definition said (s : bytes) : option bytes := match s with [] => None | _ => Some s end.
Definition policy_allows (c : access_control) (f : fetch) : bool :=
  admits_origin (said (allow_origin c)) (if allow_credentials c then Some (text "true") else None) f &&
  (negb (needs_preflight f) ||
   admits_method (said (allow_methods c)) f && forallb (admits_header (said (allow_headers c)) f) (f_unsafe f)).
