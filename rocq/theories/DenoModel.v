(** * api/rest/host_js.go: serving under Deno. *)
From Coq Require Import String.
From Verif Require Import GoBase GoText.
Open Scope list_scope.
Open Scope Z_scope.

(** The body of a request: the reader gives chunks, then it is done, or it fails (and goes
    on failing). *)
Inductive source := SDone | SFail (e : bytes) | SChunk (c : bytes) (r : source).
(** host_js.go:98-101 [jsReadableStream]: what is left of the last chunk *)
Record stream := { s_body : source; s_data : bytes }.
Inductive read := RData (d : bytes) | REof | RErr (e : bytes).
(** host_js.go:103-126 [Read] into a buffer of [n] bytes. (Read with both data and an
    error does not occur. The chunk is copied, so the stream keeps no view of it.) *)
Definition read_n (n : nat) (s : stream) : read * stream :=
  match s_data s with
  | _ :: _ => (RData (firstn n (s_data s)), {| s_body := s_body s; s_data := skipn n (s_data s) |})
  | [] =>
    match s_body s with
    | SDone => (REof, s)
    | SFail e => (RErr e, s)
    | SChunk c r =>
        (RData (firstn n c), {| s_body := r; s_data := if (n <? List.length c)%nat then skipn n c else [] |})
    end
  end.
(** host_js.go:34-36: the body of a request with the chunks [b] *)
Definition body_of (b : source) : stream := {| s_body := b; s_data := [] |}.
(** reading with buffers of the sizes [ns], until the end or an error *)
Fixpoint read_all (ns : list nat) (s : stream) : list bytes * option read :=
  match ns with
  | [] => ([], None)
  | n :: r => match read_n n s with
              | (RData d, s) => let '(ds, e) := read_all r s in (d :: ds, e)
              | (x, _) => ([], Some x)
              end
  end.

(** ** The response (host_js.go:52-57) *)
Record response := { r_code : Z; r_headers : list (bytes * bytes); r_body : bytes }.
(** The fetch standard, [new Response(body, {status})] with a body that is not null: the
    status must be between 200 and 599 and none of those of responses without a body. A
    failure is a panic of the goroutine, which nothing recovers: the server ends. *)
Definition null_body (c : Z) : bool := (c =? 204) || (c =? 205) || (c =? 304).
Definition js_response (code : Z) (body : bytes) : outcome response :=
  if (code <? 200) || (599 <? code) || null_body code then Panic
  else Ok {| r_code := code; r_headers := []; r_body := body |}.
(** what the client gets for the response [r] the handler recorded *)
Definition respond (r : response) : outcome response := js_response (r_code r) (r_body r).
(** host_js.go:50: the property x-forwarded-for of the Headers object, which has none *)
Definition remote_addr (headers : list (bytes * bytes)) : bytes := text "<undefined>".
