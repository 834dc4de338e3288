(** * Model of the naming of fields and methods in parse.go *)
From Coq Require Import String NArith Bool List.
From Verif Require Import Base.
Import ListNotations.
Local Open Scope string_scope.
Local Open Scope list_scope.
Open Scope N_scope.

(* parse.go 914-936: the range 'A' to 'Z' *)
Definition is_upper (c : N) : bool := (65 <=? c) && (c <=? 90).
(* parse.go 914-936: the range 'a' to 'z' *)
Definition is_lower (c : N) : bool := (97 <=? c) && (c <=? 122).

(** Go library bytes.ToLower / bytes.ToUpper applied to a slice of one byte: a byte above 127
    is an invalid UTF-8 sequence and gives the encoding of U+FFFD *)
Definition lower1 (c : N) : bytes := if c <? 128 then [if is_upper c then c + 32 else c] else [239; 191; 189].
Definition upper1 (c : N) : bytes := if c <? 128 then [if is_lower c then c - 32 else c] else [239; 191; 189].

(** parse.go 868-879: formatGoNameToQL; for names of one byte Go library strings.ToLower, which
    agrees with bytes.ToLower *)
Definition format_go_name (input : bytes) : bytes :=
  match input with
  | [] => []
  | [c] => lower1 c
  | c0 :: c1 :: r => if c1 =? hd 0 (upper1 c1) then input else lower1 c0 ++ c1 :: r
  end.

(** parse.go 914-936: validGraphQlName, true if there is no error *)
Definition valid_rest (c : N) : bool := is_upper c || is_lower c || ((48 <=? c) && (c <=? 57)) || (c =? 95).
Definition valid_gql_name (name : bytes) : bool :=
  match name with
  | [] => false
  | c :: r => (is_upper c || is_lower c) && forallb valid_rest r
  end.

(** Go library strings.TrimSpace: the encodings of the white space characters *)
Definition space_codes : list bytes :=
  [[9]; [10]; [11]; [12]; [13]; [32]; [194; 133]; [194; 160]; [225; 154; 128];
   [226; 128; 128]; [226; 128; 129]; [226; 128; 130]; [226; 128; 131]; [226; 128; 132]; [226; 128; 133];
   [226; 128; 134]; [226; 128; 135]; [226; 128; 136]; [226; 128; 137]; [226; 128; 138]; [226; 128; 168];
   [226; 128; 169]; [226; 128; 175]; [226; 129; 159]; [227; 128; 128]].
Fixpoint strip_prefix (p s : bytes) : option bytes :=
  match p, s with
  | [], _ => Some s
  | x :: p, y :: s => if x =? y then strip_prefix p s else None
  | _, _ => None
  end.
Fixpoint strip_any (ps : list bytes) (s : bytes) : option bytes :=
  match ps with
  | [] => None
  | p :: r => match strip_prefix p s with Some t => Some t | None => strip_any r s end
  end.
Fixpoint trim_left (fuel : nat) (codes : list bytes) (s : bytes) : bytes :=
  match fuel with
  | O => s
  | S f => match strip_any codes s with Some t => trim_left f codes t | None => s end
  end.
Definition trim_space (s : bytes) : bytes :=
  let l := trim_left (length s) space_codes s in
  rev (trim_left (length l) (map (@rev N) space_codes) (rev l)).

(** Go library strings.Split(s, ",") *)
Fixpoint split_comma (s : bytes) : list bytes :=
  match s with
  | [] => [[]]
  | c :: r =>
      if c =? 44 then [] :: split_comma r
      else match split_comma r with
           | [] => [[c]]
           | w :: l => (c :: w) :: l
           end
  end.

(** strings.ToLower(m) == "id", parse.go 902-903; the last two are with U+0130, whose lower
    case is the letter i *)
Definition lower_is_id (m : bytes) : bool :=
  existsb (beqb m) [bs "id"; bs "Id"; bs "iD"; bs "ID"; [196; 176; 100]; [196; 176; 68]].

(** parse.go 881-912: parseFieldTagGQ; [tag] is the value of the key gq *)
Inductive tag_result := TagIgnore | TagErr | TagOk (name : option bytes) (is_id : bool).
Definition parse_tag (tag : option bytes) : tag_result :=
  match tag with
  | None | Some [] => TagOk None false
  | Some val =>
      match split_comma val with
      | [] => TagOk None false
      | a :: mods =>
          let name := trim_space a in
          if beqb name [45] then TagIgnore
          else
            let bad_name := negb (beqb name []) && negb (valid_gql_name name) in
            let bad_mod := existsb (fun m => negb (lower_is_id (trim_space m))) mods in
            if bad_name || bad_mod then TagErr
            else TagOk (if beqb name [] then None else Some name) (match mods with [] => false | _ => true end)
      end
  end.

(** a field of a Go struct as seen by reflection; the type of the field is left out: it is
    assumed to be one the schema supports *)
Record gofield := GoField { gf_name : bytes; gf_anon : bool; gf_tag : option bytes }.

(** parse.go 558-579 and 415-431: checkStructField and its use in check *)
Inductive exposure := Hidden | Exposed (ql_name : bytes) | ExposeErr.
Definition expose_field (f : gofield) : exposure :=
  if gf_anon f then Hidden
  else match parse_tag (gf_tag f) with
       | TagIgnore => Hidden
       | TagErr => ExposeErr
       | TagOk (Some n) _ => Exposed n
       | TagOk None _ => Exposed (format_go_name (gf_name f))
       end.
(** the fields of a struct: parse.go 415-431; [None] is an error *)
Fixpoint expose_struct (fs : list gofield) (idx : nat) : option (list (bytes * nat)) :=
  match fs with
  | [] => Some []
  | f :: r =>
      match expose_field f with
      | ExposeErr => None
      | Hidden => expose_struct r (S idx)
      | Exposed n => match expose_struct r (S idx) with None => None | Some l => Some ((n, idx) :: l) end
      end
  end.

(** parse.go 736-757 (checkFunction) and 526-546 (check): the name of a method.  The test of
    line 745 compares the first byte b of the rest of the name with the first byte of the
    upper case of the character U+00b; above 127 this holds for byte 195 only. *)
Inductive method_exposure := MHidden | MPanic | MExposed (ql_name : bytes).
Definition upper_start (c : N) : bool := if c <? 128 then negb (is_lower c) else c =? 195.
Definition expose_method (name : bytes) : method_exposure :=
  match strip_prefix (bs "Resolve") name with
  | None => MHidden
  | Some [] => MPanic
  | Some (c :: r) => if upper_start c then MExposed (format_go_name (c :: r)) else MHidden
  end.
