(** * Model of implement_helpers.go: from a HTTP request to Resolve and back *)
From Coq Require Import String NArith ZArith Bool List.
From Verif Require Import Base JsonModel.
Import ListNotations.
Open Scope N_scope.

(** parsed JSON as the fastjson library gives it: numbers are kept as text, objects as lists of
    members in the order of the text *)
Inductive fj :=
| FNull | FTrue | FFalse
| FNumber (raw : bytes)
| FString (s : bytes)
| FArray (l : list fj)
| FObject (m : list (bytes * fj)).
(** fastjson Type.String *)
Definition fj_type (v : fj) : bytes :=
  match v with
  | FNull => bs "null" | FTrue => bs "true" | FFalse => bs "false" | FNumber _ => bs "number"
  | FString _ => bs "string" | FArray _ => bs "array" | FObject _ => bs "object"
  end.
(** fastjson Value.Get on an object with one key: the first member with that key *)
Fixpoint fj_get (m : list (bytes * fj)) (k : bytes) : option fj :=
  match m with
  | [] => None
  | (k', v) :: r => if beqb k k' then Some v else fj_get r k
  end.

(** implement_helpers.go 15-20 RequestOptions together with 116-140 handleSingleRequest: the
    options are passed on unchanged, so they are part of the world below, as is the map [Values],
    which is passed by reference (line 131) and can be changed by resolvers *)
Record single := Single { sg_query : bytes; sg_operation : bytes; sg_variables : bytes }.
(** implement_helpers.go 23-30: what HandleRequest can ask about the request; the callbacks are
    taken as functions of their key *)
Record request := Request {
  rq_method : bytes;
  rq_url : bytes -> bytes;
  rq_form : bytes -> bytes + bytes;   (* inl value, inr error message *)
  rq_body : bytes;
  rq_ctype : bytes
}.

(** implement_helpers.go 142-190 getBodyData: the request, or the error message *)
Definition get_body_data (print : fj -> bytes) (body : fj) : single + bytes :=
  match body with
  | FObject m =>
      match fj_get m (bs "query") with
      | None => inr (bs "query should be defined")
      | Some (FString q) =>
          let oper :=
            match fj_get m (bs "operationName") with
            | None | Some FNull => inl []
            | Some (FString o) => inl o
            | Some v => inr (bs "expected operationName to be a string but got " ++ fj_type v)
            end in
          match oper with
          | inr e => inr e
          | inl o =>
              match fj_get m (bs "variables") with
              | None | Some FNull => inl (Single q o [])
              | Some (FObject vm) => inl (Single q o (print (FObject vm)))
              | Some v => inr (bs "expected variables to be a key value object but got: " ++ fj_type v)
              end
          end
      | Some _ => inr (bs "invalid query param, must be a valid string")
      end
  | _ => inr (bs "body should be a object")
  end.

(** implement_helpers.go 33-38 errRes *)
Definition err_response (msg : bytes) : bytes :=
  (123 :: 34 :: bs "data" ++ 34 :: 58 :: 123 :: 125 :: 44 :: 34 :: bs "errors" ++ 34 :: 58 :: 91 :: 123 :: 34 :: bs "message" ++ [34; 58]) ++
  string_to_json msg ++
  (125 :: 93 :: 44 :: 34 :: bs "extensions" ++ [34; 58; 123; 125; 125]).

(** strings.ToUpper of line 31 on ASCII; no other character has an upper case in GET *)
(* implement_helpers.go 31 *)
Definition to_upper (s : bytes) : bytes := map (fun c => if (97 <=? c) && (c <=? 122) then c - 32 else c) s.

Section Req.
(** the world: the schema, the options and whatever the user resolvers depend on *)
Variable W : Type.
(** errors as they are returned to the caller *)
Variable E : Type.
Variable new_error : bytes -> E.  (* errors.New *)
(** fastjson.Parser.Parse and fastjson Value.String *)
Variable parse : bytes -> option fj.
Variable print : fj -> bytes.
(** s.Resolve, leaving the response in s.Result *)
Variable resolve : W -> single -> W * (bytes * list E).

(** implement_helpers.go 64-91: the loop over the items of a batch; [acc] is the response buffer.
    [response.Len() > 1] (70) is the test for the first item. *)
Fixpoint batch_loop (w : W) (items : list fj) (acc : bytes) (errs : list E) : W * (bytes * list E) :=
  match items with
  | [] => (w, (acc ++ [93], errs))
  | item :: r =>
      let acc := if (1 <? N.of_nat (length acc)) then acc ++ [44] else acc in
      match get_body_data print item with
      | inr e => batch_loop w r (acc ++ err_response e) (errs ++ [new_error e])
      | inl q => let '(w, (res, es)) := resolve w q in batch_loop w r (acc ++ res) (errs ++ es)
      end
  end.

(** implement_helpers.go 40: where the request is taken from *)
Definition from_body (r : request) : bool :=
  beqb (rq_ctype r) (bs "application/json") ||
  ((beqb (rq_ctype r) (bs "text/plain") || beqb (rq_ctype r) (bs "multipart/form-data")) &&
   negb (beqb (to_upper (rq_method r)) (bs "GET"))).

(** implement_helpers.go 23-114 HandleRequest *)
Definition handle_request (w : W) (r : request) : W * (bytes * list E) :=
  let err_res (msg : bytes) := (w, (err_response msg, [new_error msg])) in
  if from_body r then
    match (if beqb (rq_ctype r) (bs "multipart/form-data") then rq_form r (bs "operations") else inl (rq_body r)) with
    | inr e => err_res e
    | inl [] => err_res (bs "empty body")
    | inl body =>
        match parse body with
        | None => err_res (bs "invalid json body")
        | Some (FArray items) => batch_loop w items [91] []
        | Some v =>
            match get_body_data print v with
            | inr e => err_res e
            | inl q => resolve w q
            end
        end
    end
  else resolve w (Single (rq_url r (bs "query")) (rq_url r (bs "operationName")) (rq_url r (bs "variables"))).
End Req.
Arguments batch_loop {W E}.
Arguments handle_request {W E}.
