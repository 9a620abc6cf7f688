(** Model of how a REST host answers a request for a function and how a linked client reads the answer:
    api/rest/host.go:548-958, api/rest/link.go:188-428, api/internal/http/http.go:62-204, and the parts of
    net/http they rest on. *)
From Coq Require Import String.
From Verif Require Import GoBase GoText.
Local Open Scope Z_scope.
Local Open Scope list_scope.

(** ** net/http *)
(** Headers: one value for each name; names are taken as written (canonical). *)
Definition headers := list (bytes * bytes).
Definition hdel (k : bytes) (h : headers) : headers := filter (fun kv => negb (beq (fst kv) k)) h.
Definition hset (k v : bytes) (h : headers) : headers := (k, v) :: hdel k h.
Definition hget (k : bytes) (h : headers) : bytes := match find (fun kv => beq (fst kv) k) h with Some (_, v) => v | None => [] end.
Definition hset_all (kvs : headers) (h : headers) : headers := fold_left (fun h kv => hset (fst kv) (snd kv) h) kvs h.
Definition ContentType := text "Content-Type".
Definition ContentLength := text "Content-Length".
(** http.ResponseWriter: the headers that can still be changed, the status and headers once they are
    sent, and the body. Content-Length is not enforced here. *)
Record rw := { hdr : headers; sent : option (Z * headers); out : bytes }.
Definition fresh : rw := {| hdr := []; sent := None; out := [] |}.
(** net/http response.WriteHeader: [None]: it panics, for a status that is not a three digit number. The
    first status that is not informational stays. *)
Definition write_header (code : Z) (w : rw) : option rw :=
  match sent w with
  | Some _ => Some w
  | None =>
    if (code <? 100) || (999 <? code) then None
    else if (code <=? 199) && negb (code =? 101) then Some w
    else Some {| hdr := hdr w; sent := Some (code, hdr w); out := out w |}
  end.
(** net/http response.Write; bodyAllowedForStatus *)
Definition body_allowed (code : Z) : bool := negb ((code <=? 199) || (code =? 204) || (code =? 304)).
Definition write (b : bytes) (w : rw) : rw :=
  let w := match sent w with Some _ => w | None => {| hdr := hdr w; sent := Some (200, hdr w); out := out w |} end in
  match sent w with
  | Some (code, _) => if body_allowed code then {| hdr := hdr w; sent := sent w; out := out w ++ b |} else w
  | None => w
  end.
Definition set_header (k v : bytes) (w : rw) : rw := {| hdr := hset k v (hdr w); sent := sent w; out := out w |}.
(** http.Error *)
Definition text_utf8 := text "text/plain; charset=utf-8".
Definition http_error (msg : bytes) (code : Z) (w : rw) : option rw :=
  let h := hset (text "X-Content-Type-Options") (text "nosniff") (hset ContentType text_utf8 (hdel ContentLength (hdr w))) in
  match write_header code {| hdr := h; sent := sent w; out := out w |} with
  | None => None
  | Some w => Some (write (msg ++ [10]) w)
  end.
(** http.DetectContentType, for bodies that start as a JSON document does; the rest is not modelled. *)
Definition binary (b : Z) : bool := (b <=? 8) || (b =? 11) || ((14 <=? b) && (b <=? 26)) || ((28 <=? b) && (b <=? 31)).
Definition json_start (b : Z) : bool := member b (text "{[""-0123456789tfn").
Definition sniff (body : bytes) : bytes :=
  match body with
  | [] => []
  | b :: _ => if json_start b && negb (existsb binary body) then text_utf8 else text "application/octet-stream"
  end.
(** What the client gets when the handler has returned: a content type is found when none was sent. *)
Record response := { code : Z; rhdr : headers; body : bytes }.
Definition response_of (w : rw) : response :=
  let '(c, h) := match sent w with Some s => s | None => (200, hdr w) end in
  {| code := c; body := out w;
     rhdr := match find (fun kv => beq (fst kv) ContentType) h, out w with None, _ :: _ => hset ContentType (sniff (out w)) h | _, _ => h end |}.
(** mime.ParseMediaType, less its parameters: before the semicolon, without blanks, in lower case. *)
Definition lower (b : Z) : Z := if (65 <=? b) && (b <=? 90) then b + 32 else b.
Definition media_type (s : bytes) : bytes := let '(t, _, _) := cut s 59 in map lower (trim t (text " " ++ [9])).

(** ** Errors *)
(** An error: its message, its StatusHTTP, whether it is ErrNotImplemented (errors.Is), the headers it
    writes, and its JSON form when its content type is JSON; or one wrapped by xray.New or fmt.Errorf. *)
Inductive error :=
| Err (emsg : bytes) (estatus : option Z) (enotimpl : bool) (ehdrs : headers) (ejson : option bytes)
| Wrap (emsg : bytes) (inner : error).
Definition message (e : error) : bytes := match e with Err m _ _ _ _ => m | Wrap m _ => m end.
Definition estatus (e : error) : option Z := match e with Err _ s _ _ _ => s | Wrap _ _ => None end.
Definition eheaders (e : error) : headers := match e with Err _ _ _ h _ => h | Wrap _ _ => [] end.
Definition ejson (e : error) : option bytes := match e with Err _ _ _ _ j => j | Wrap _ _ => None end.
Fixpoint is_notimpl (e : error) : bool := match e with Err _ _ n _ _ => n | Wrap _ i => is_notimpl i end.
(** A registered scenario: its test, the status of its tag (0: none), its text. *)
Record scenario := { s_test : error -> bool; s_code : Z; s_text : bytes }.

Section Host.
Variables (V Ctx Args : Type).
(** api.Auth *)
Record auth := { authenticate : Ctx * option error; authorize : Ctx -> Args -> option error; redact : Ctx -> error -> error }.
Definition redacted (a : option auth) (ctx : Ctx) (e : error) : error := match a with Some a => redact a ctx e | None => e end.
(** host.go:548-602 [handle] *)
Definition status_of (e : error) : Z :=
  match estatus e with
  | Some s => if s =? 0 then 500 else s
  | None => if is_notimpl e then 501 else 500
  end.
Definition message_of (e : error) : bytes :=
  match estatus e with Some _ => message e | None => if is_notimpl e then text "not implemented" else message e end.
Definition handle (a : option auth) (scenarios : list scenario) (ctx : Ctx) (e : error) (w : rw) : option rw :=
  let w := {| hdr := hset_all (eheaders e) (hdr w); sent := sent w; out := out w |} in
  let e := redacted a ctx e in
  match ejson e with
  | Some j => match write_header (status_of e) (set_header ContentType (text "application/json") w) with None => None | Some w => Some (write j w) end
  | None =>
    match find (fun s => s_test s e) scenarios with
    | Some s => http_error (if beq (s_text s) [] then message_of e else s_text s) (if s_code s =? 0 then status_of e else s_code s) w
    | None => http_error (message_of e) (status_of e) w
    end
  end.

(** ** The handler of an operation *)
(** The encodings of a value; an encoder fails before it has written anything. *)
Definition encoder := bytes -> V -> bytes + error.
(** A result: a value with the headers and the status it may ask for, or a reader with a content and
    maybe a failure at its end. *)
Inductive value := Data (kind_json : bool) (hd : headers) (st : option Z) (v : V) | Reader (content : bytes) (fail : option error).
(** The function: host.go:843; and how the arguments are read (RestModel, C76): they are read, or fail
    with an error, or with 422. *)
Record op := {
  o_method : bytes; o_default : bytes; o_scenarios : list scenario; o_rules : list bytes;
  o_read : Args + (error + unit); o_call : Ctx -> Args -> list value + error;
}.
Record request := { q_accept : bytes; q_ctx : Ctx }.
(** What happens, in order. *)
Inductive event := EAuthenticate (c : Ctx) (e : option error) | ERead | EAuthorize (c : Ctx) (a : Args) (e : option error) | ECall (c : Ctx) (a : Args) | EForm.
Definition content_types : list bytes := map text ["application/json"; "application/xml"; "text/plain"; "multipart/form-data"; "application/json+schema"]%string.
Definition supported (t : bytes) : bool := existsb (beq t) content_types.
(** host.go:848-858: headers and status of the results. *)
Fixpoint announce (vs : list value) (w : rw) : option rw :=
  match vs with
  | [] => Some w
  | Reader _ _ :: r => announce r w
  | Data _ hd st _ :: r =>
    let w := {| hdr := hset_all hd (hdr w); sent := sent w; out := out w |} in
    match st with
    | None => announce r w
    | Some s => match write_header s w with None => None | Some w => announce r w end
    end
  end.
(** host.go:893-905 *)
Definition default_accept (vs : list value) : bytes :=
  match vs with [Data k _ _ _] => if k then text "application/json" else text "text/plain" | [Reader _ _] => text "text/plain" | _ => text "application/json" end.
Variable encode : encoder.
Variable encode_map : bytes -> list (bytes * V) -> bytes + error.
Variable form : rw -> rw.
Definition data_of (v : value) : option V := match v with Data _ _ _ v => Some v | Reader _ _ => None end.
(** host.go:906-941. A reader among the results to be encoded is not modelled: it is encoded as an error. *)
Definition no_encoding : error := Err (text "unsupported") None false [] None.
Definition encode_results (t : bytes) (rules : list bytes) (vs : list value) : bytes + error :=
  match rules with
  | [] => match vs with Data _ _ _ v :: _ => encode t v | _ => inr no_encoding end
  | _ :: _ =>
    (fix go (rs : list bytes) (vs : list value) (acc : list (bytes * V)) : bytes + error :=
       match rs, vs with
       | r :: rs, Data _ _ _ v :: vs => go rs vs (acc ++ [(r, v)])
       | [], _ => encode_map t acc
       | _, _ => inr no_encoding
       end) rules vs []
  end.
Fixpoint negotiate (types : list bytes) : option bytes :=
  match types with [] => None | t :: r => if supported (media_type t) then Some (media_type t) else negotiate r end.
Definition respond (a : option auth) (o : op) (ctx : Ctx) (accept : bytes) (vs : list value) (w : rw) : option rw :=
  let accept := if beq accept [] || beq accept (text "*/*") then default_accept vs else accept in
  match negotiate (split accept 44) with
  | Some t =>
    let w := set_header ContentType t w in
    match encode_results t (o_rules o) vs with
    | inl b => Some (write b w)
    | inr e => handle a (o_scenarios o) ctx e w
    end
  | None => http_error (text "unsupported media type") 415 w
  end.
(** host.go:859-941 *)
Definition reply (a : option auth) (o : op) (ctx : Ctx) (accept : bytes) (vs : list value) (w : rw) : option rw :=
  match announce vs w with
  | None => None
  | Some w =>
    match vs with
    | [] => write_header 204 w
    | [Reader content fail] =>
      if beq (o_default o) [] then respond a o ctx accept vs w
      else let w := set_header ContentType (o_default o) w in
           let w := match content with [] => w | _ :: _ => write content w end in
           match fail with None => Some w | Some e => handle a (o_scenarios o) ctx e w end
    | _ => respond a o ctx accept vs w
    end
  end.
(** host.go:661-849 *)
Definition serve (a : option auth) (o : op) (q : request) : list event * option rw :=
  let '(ev1, ctx, failed) := match a with None => ([], q_ctx q, None) | Some a => let '(c, e) := authenticate a in ([EAuthenticate c e], c, e) end in
  match failed with
  | Some e => (ev1, handle a (o_scenarios o) ctx e fresh)
  | None =>
    if (negb (beq (o_default o) (text "text/html")) && beq (o_method o) (text "GET") && contains (q_accept q) (text "text/html")) || contains (q_accept q) (text "application/schema+json")
    then (ev1 ++ [EForm], Some (form fresh))
    else
      match o_read o with
      | inr (inl e) => (ev1 ++ [ERead], handle a (o_scenarios o) ctx e fresh)
      | inr (inr tt) => (ev1 ++ [ERead], http_error (text "Unprocessable Entity") 422 fresh)
      | inl args =>
        let '(ev2, denied) := match a with None => ([], None) | Some a => let e := authorize a ctx args in ([EAuthorize ctx args e], e) end in
        match denied with
        | Some e => (ev1 ++ [ERead] ++ ev2, handle a (o_scenarios o) ctx e fresh)
        | None =>
          (ev1 ++ [ERead] ++ ev2 ++ [ECall ctx args],
           match o_call o ctx args with
           | inr e => handle a (o_scenarios o) ctx e fresh
           | inl vs => reply a o ctx (q_accept q) vs fresh
           end)
        end
      end
  end.
(** host.go:634-660, 943-957: the handlers of a resource; a GET where there is none is answered with the
    form, OPTIONS without a body. *)
Definition dispatch (a : option auth) (ops : list op) (m : bytes) (q : request) : list event * option rw :=
  match find (fun o => beq (o_method o) m) ops with
  | Some o => serve a o q
  | None =>
    if beq m (text "GET") then ([EForm], Some (form fresh))
    else if beq m (text "OPTIONS") then ([], write_header 204 fresh)
    else ([], http_error (text "Method Not Allowed") 405 fresh)
  end.

(** ** The client *)
(** What the caller gets: an error with its message and maybe a status; or one of the registered type. *)
Variable E : Type.
Inductive cerror := CErr (cmsg : bytes) (cstatus : option Z) | CTyped (e : E).
(** [CZero]: no results were given, so they are zero. *)
Inductive cresult := COk (vs : list V) | CZero | CReader (content : bytes) | CFail (e : cerror) | CPanic.
Variable status_text : Z -> bytes.
(** strings.TrimSpace, for ASCII blanks *)
Definition trim_space (s : bytes) : bytes := trim s [9; 10; 11; 12; 13; 32].
(** api/internal/http/http.go:42-60 [responseError] *)
Definition response_error (code : Z) (msg : bytes) : cerror := CErr (if beq msg [] then status_text code else msg) (Some code).
(** api/internal/http/http.go:62-204 [ResponseError], for a status that is no success *)
Definition from_response (code : Z) (rest : bytes) : cerror :=
  if code =? 411 then response_error code (text "please provide a Content-Length header")
  else if code =? 413 then response_error code (text "please provide a smaller payload")
  else if code =? 414 then response_error code (text "please provide a smaller uri")
  else if code =? 429 then response_error code (text "please slow down")
  else if code =? 431 then response_error code (text "please reduce the size of your header fields")
  else if code =? 500 then CErr (text "unexpected status : 500 Internal Server Error " ++ rest) None
  else response_error code (trim_space rest).
(** link.go:408-428 [decodeError]. [typed]: the decoder of the single registered error type. A decoder that
    fails has taken what it has read from the body: its first 512 bytes. *)
Definition decode_error (typed : option (bytes -> option E)) (method : bytes) (r : response) : cresult :=
  match match typed with Some d => d (body r) | None => None end with
  | Some e => CFail (CTyped e)
  | None =>
    let rest := match typed with Some _ => skipn 512 (body r) | None => body r end in
    if code r =? 404 then if beq method (text "DELETE") then CZero else CFail (CErr (text "not found") None)
    else CFail (from_response (code r) rest)
  end.
(** link.go:188-243 [clientRead] and 376-404. [mime]: whether the function has a mime tag; its result is
    then a reader. *)
Variable decode : bytes -> bytes -> option V.
Variable decode_map : bytes -> list bytes -> bytes -> option (list V).
Definition decodable (t : bytes) : bool := existsb (beq t) (map text ["application/json"; "application/xml"; "text/plain"]%string).
Definition decode_failed : cerror := CErr (text "decoding failed") None.
Definition receive (typed : option (bytes -> option E)) (o : op) (mime : bool) (nresults : nat) (r : response) : cresult :=
  if (code r <? 200) || (299 <? code r) then decode_error typed (o_method o) r
  else
    let ctype := media_type (hget ContentType (rhdr r)) in
    let ctype := if beq ctype [] then o_default o else ctype in
    let ctype := if beq ctype [] then text "application/json" else ctype in
    match nresults with
    | O => COk []
    | S _ =>
      if mime then CReader (body r)
      else if negb (supported ctype) then CFail (CErr (text "unsupported content type: " ++ ctype) None)
      else if negb (decodable ctype) then CPanic
      else match o_rules o with
           | _ :: _ => match decode_map ctype (o_rules o) (body r) with Some vs => COk vs | None => CFail decode_failed end
           | [] => match decode ctype (body r) with Some v => COk [v] | None => CFail decode_failed end
           end
    end.
(** The client asks for JSON: link.go:334. *)
Definition client_accept := text "application/json".
End Host.
