(** * Model of the query parser, bytecode/bytecode.go and bytecode/bytecode_instructions.go.

    Every definition cites the Go lines it models.  The Go receiver [ctx] is the
    state [pst]; [ctx.Query] and [ctx.target] do not change during a parse and are
    section variables.  Go control flow "return criticalErr" is the outcome [Crit];
    every place of the code that gets a critical error from a callee returns it at once,
    except line 516 (the result of the nested parseSelectionSet of an inline fragment is
    ignored) which is modelled by [catch].  An index out of range is [Panic]; loops run on
    fuel and give [NoFuel] when the fuel does not suffice (shown impossible in
    ParserSafe.v).  Error texts are kept literally, except the text of the error of the
    Go library function hex.Decode, which is a constant here.  *)
From Coq Require Import String NArith Bool List.
From Verif Require Import Base.
Import ListNotations.
Open Scope N_scope.

(** bytecode.go 1259-1264: ErrorWLocation *)
Record perr := PErr { e_msg : bytes; e_line : N; e_col : N }.

(** bytecode.go 17-29: ParserCtx (the fields that change during a parse);
    TargetIdx = -1 is [None]. *)
Record pst := PS {
  p_res : bytes;          (* ctx.Res *)
  p_frags : list nat;     (* ctx.FragmentLocations *)
  p_pos : nat;            (* ctx.charNr *)
  p_errs : list perr;     (* ctx.Errors *)
  p_tgt : option nat      (* ctx.TargetIdx *)
}.

(* model only, no code: a value, a critical error, a Go panic, or no fuel left *)
Inductive out (A : Type) : Type :=
| Ok (a : A) (s : pst)
| Crit (s : pst)
| Panic
| NoFuel.
Arguments Ok {A}. Arguments Crit {A}. Arguments Panic {A}. Arguments NoFuel {A}.

(* model only, no code: a step of the parser *)
Definition M (A : Type) := pst -> out A.
(* model only, no code: a result *)
Definition ret {A} (a : A) : M A := fun s => Ok a s.
(* model only, no code: one step after the other; a critical error is passed on *)
Definition bind {A B} (m : M A) (k : A -> M B) : M B :=
  fun s => match m s with
           | Ok a s' => k a s'
           | Crit s' => Crit s'
           | Panic => Panic
           | NoFuel => NoFuel
           end.
Notation "x <- m ;; k" := (bind m (fun x => k)) (at level 61, m at next level, right associativity).
Notation "m ;;; k" := (bind m (fun _ => k)) (at level 61, right associativity).

(** Ignoring a critical error of the callee (bytecode.go 516). *)
Definition catch (m : M unit) : M unit :=
  fun s => match m s with Crit s' => Ok tt s' | o => o end.
(** Doing something with the state before a critical error is passed on
    (bytecode.go 156-160, 502-506, 584-588: the directive count is stored first). *)
Definition finally {A} (m : M (A * bool)) (k : A -> M unit) : M A :=
  r <- m ;; let (a, crit) := r in
  k a ;;; (if crit : bool then (fun s => Crit s) else ret a).

(* model only, no code: a field of the state *)
Definition set_res (r : bytes) (s : pst) : pst := PS r (p_frags s) (p_pos s) (p_errs s) (p_tgt s).
(* model only, no code: a field of the state *)
Definition set_pos (n : nat) (s : pst) : pst := PS (p_res s) (p_frags s) n (p_errs s) (p_tgt s).

(** append(ctx.Res, ...) *)
(* bytecode_instructions.go, each function *)
Definition append (b : bytes) : M unit := fun s => Ok tt (set_res (p_res s ++ b) s).
(** len(ctx.Res) *)
(* bytecode.go 95 *)
Definition res_len : M nat := fun s => Ok (length (p_res s)) s.
(** ctx.charNr++ and ctx.charNr-- *)
(* bytecode.go 1116-1130 and the like *)
Definition advance : M unit := fun s => Ok tt (set_pos (S (p_pos s)) s).
(* bytecode.go 955, 997 *)
Definition retreat : M unit := fun s => Ok tt (set_pos (pred (p_pos s)) s).
(* reading ctx.charNr *)
Definition get_pos : M nat := fun s => Ok (p_pos s) s.
(* ctx.charNr = n *)
Definition put_pos (n : nat) : M unit := fun s => Ok tt (set_pos n s).

(** ctx.Res[at] = v, an index out of range panics. *)
(* bytecode.go 81-84, 138, 157, 370 *)
Fixpoint upd (l : bytes) (at_ : nat) (v : N) : option bytes :=
  match l, at_ with
  | [], _ => None
  | _ :: r, O => Some (v :: r)
  | x :: r, S n => match upd r n v with Some r' => Some (x :: r') | None => None end
  end.
(* bytecode.go 81-84, 138, 157, 370 *)
Definition store (at_ : nat) (v : N) : M unit :=
  fun s => match upd (p_res s) at_ v with Some r => Ok tt (set_res r s) | None => Panic end.

(** bytecode.go 80-85: writeUint32; testing_framework.go 8-14: writeUint32At *)
Definition write32 (value : N) (at_ : nat) : M unit :=
  store at_ (value mod 256) ;;;
  store (at_ + 1) ((value / 256) mod 256) ;;;
  store (at_ + 2) ((value / 65536) mod 256) ;;;
  store (at_ + 3) ((value / 16777216) mod 256).

(** bytecode.go 1314, 1328: name characters *)
Definition name_start (c : N) : bool :=
  ((97 <=? c) && (c <=? 122)) || ((65 <=? c) && (c <=? 90)) || (c =? cUND).
Definition digit (c : N) : bool := (48 <=? c) && (c <=? 57).
Definition name_char (c : N) : bool := name_start c || digit c.

(** bytecode.go 1132-1134: isPunctuator *)
Definition is_punctuator (c : N) : bool :=
  (c =? cBANG) || (c =? cDOLLAR) || (c =? cLPAR) || (c =? cRPAR) || (c =? cDOT) || (c =? cCOLON)
  || (c =? cEQ) || (c =? cAT) || (c =? cLBRK) || (c =? cRBRK) || (c =? cLBR) || (c =? cBAR) || (c =? cRBR).

(** encoding/hex: fromHexChar *)
Definition hex_val (c : N) : option N :=
  if digit c then Some (c - 48)
  else if (97 <=? c) && (c <=? 102) then Some (c - 87)
  else if (65 <=? c) && (c <=? 70) then Some (c - 55)
  else None.

(** bytecode.go 1271-1294: the location loop of err.  [idx] is the index of the head of
    [l], [prev] the character before it. *)
Fixpoint loc_loop (l : bytes) (idx stop : nat) (prev : option N) (line col : N) : N * N :=
  match l with
  | [] => (line, col)
  | c :: r =>
      if Nat.eqb idx stop then (line, col)
      else if c =? cLF then
        if (col =? 0) && Nat.ltb 0 idx && (match prev with Some p => p =? cCR | None => false end)
        then loc_loop r (S idx) stop (Some c) line col
        else loc_loop r (S idx) stop (Some c) (line + 1) 0
      else if c =? cCR then loc_loop r (S idx) stop (Some c) (line + 1) 0
      else loc_loop r (S idx) stop (Some c) line (col + 1)
  end.

Section Parser.
Variable q : bytes.               (* ctx.Query *)
Variable target : option bytes.   (* ctx.target *)

(** bytecode.go 52: hasTarget *)
Definition has_target : bool :=
  match target with Some (_ :: _) => true | _ => false end.

(** bytecode.go 1271-1306: err, unexpectedEOF; always returns true (critical) *)
Definition err {A} (msg : bytes) : M A :=
  fun s => let (line, col) := loc_loop q 0 (p_pos s) None 1 0 in
           Crit (PS (p_res s) (p_frags s) (p_pos s) (p_errs s ++ [PErr msg line col]) (p_tgt s)).
Definition unexpected_eof {A} : M A := err (bs "unexpected EOF").
(** the text "... <string(c)>..." of an error message *)
Definition msg_c (pre : string) (c : N) (post : string) : bytes := bs pre ++ utf8_encode c ++ bs post.

(** bytecode.go 1097-1110: checkC, c, eof; [None] is eof *)
Definition check_c (n : nat) : option N := nth_error q n.
Definition peek : M (option N) := fun s => Ok (check_c (p_pos s)) s.
Definition peek_next : M (option N) := fun s => Ok (check_c (S (p_pos s))) s.
(** bytecode.go 1112-1114: currentC; panics at the end *)
Definition current_c : M N := fun s => match check_c (p_pos s) with Some c => Ok c s | None => Panic end.
(** err with the current character in the message *)
Definition err_cur {A} (pre : string) (post : string) : M A := c <- current_c ;; err (msg_c pre c post).

(* model only, no code: the fuel is used up *)
Definition no_fuel {A} : M A := fun _ => NoFuel.
(** Fuel for the loops that read one character per round. *)
(* model only, no code: never used up, see the theorems *)
Definition char_fuel : nat := S (S (length q)).

(** bytecode.go 1143-1156: isLineTerminator *)
Definition is_line_terminator : M bool :=
  c <- current_c ;;
  if c =? cLF then ret true
  else if c =? cCR then
    next <- peek_next ;;
    (match next with
     | Some n => if n =? cLF then advance else ret tt
     | None => ret tt
     end) ;;; ret true
  else ret false.

(** bytecode.go 1169-1179: parseComment *)
Fixpoint parse_comment (fuel : nat) : M unit :=
  match fuel with
  | O => no_fuel
  | S f =>
      c <- peek ;;
      match c with
      | None => ret tt
      | Some _ =>
          t <- is_line_terminator ;;
          if t : bool then ret tt else advance ;;; parse_comment f
      end
  end.

(** bytecode.go 1159-1167: isComment(true) *)
Definition is_comment : M bool :=
  c <- current_c ;;
  if c =? cHASH then parse_comment char_fuel ;;; ret true else ret false.

(** bytecode.go 1137-1140: isIgnoredToken *)
Definition is_ignored_token (c : N) : M bool :=
  if (c =? cSP) || (c =? cTAB) then ret true
  else t <- is_line_terminator ;;
  if t : bool then ret true
  else t <- is_comment ;;
  if t : bool then ret true
  else ret (c =? cNUL).

(** bytecode.go 1116-1130: mightIgnoreNextTokens; [None] is eof *)
Fixpoint skip_ignored_loop (fuel : nat) : M (option N) :=
  match fuel with
  | O => no_fuel
  | S f =>
      c <- peek ;;
      match c with
      | None => ret None
      | Some c =>
          ig <- is_ignored_token c ;;
          if ig : bool then advance ;;; skip_ignored_loop f else ret (Some c)
      end
  end.
Definition might_ignore : M (option N) := skip_ignored_loop char_fuel.

(** the pattern "c, eof := ctx.mightIgnoreNextTokens(); if eof { return ctx.unexpectedEOF() }" *)
(* bytecode.go 90-94 and the like *)
Definition next_token : M N :=
  c <- might_ignore ;;
  match c with None => unexpected_eof | Some c => ret c end.
(** the pattern "c, eof := ctx.checkC(ctx.charNr); if eof { return ctx.unexpectedEOF() }" *)
(* bytecode.go 1097-1102 with 1303-1306 *)
Definition next_char : M N :=
  c <- peek ;;
  match c with None => unexpected_eof | Some c => ret c end.

(** bytecode.go 1200-1223: matches with one string *)
Fixpoint matches1_loop (start : nat) (key : bytes) : M bool :=
  match key with
  | [] => fun _ => Panic     (* oneOf[0][offset] out of range: only for an empty key *)
  | k :: key' =>
      c <- peek ;;
      match c with
      | None => put_pos start ;;; ret false
      | Some c =>
          if negb (k =? c) then put_pos start ;;; ret false
          else match key' with
               | [] => advance ;;; ret true
               | _ => advance ;;; matches1_loop start key'
               end
      end
  end.
Definition matches1 (key : string) : M bool :=
  start <- get_pos ;; matches1_loop start (bs key).

(** bytecode.go 1235-1247: one round of the inner loop of matches with several strings;
    gives the new keys, whether lastChecked was set, and the index of a full match *)
Fixpoint match_round (keys : list bytes) (idx offset : nat) (c : N) : list bytes * bool * option nat :=
  match keys with
  | [] => ([], false, None)
  | key :: r =>
      if Nat.ltb offset (length key) then
        if negb (nth offset key 0 =? c) then
          let '(r', ch, m) := match_round r (S idx) offset c in ([] :: r', ch, m)
        else if Nat.eqb (length key) (offset + 1) then (keys, false, Some idx)
        else let '(r', ch, m) := match_round r (S idx) offset c in (key :: r', true, m)
      else let '(r', ch, m) := match_round r (S idx) offset c in (key :: r', ch, m)
  end.
(** bytecode.go 1225-1256: matches with several strings.  [last] says whether lastChecked
    is non-empty; the code never resets it. *)
Fixpoint matchesN_loop (fuel : nat) (start : nat) (keys : list bytes) (last : bool) : M (option nat) :=
  match fuel with
  | O => no_fuel
  | S f =>
      p <- get_pos ;;
      c <- peek ;;
      match c with
      | None => put_pos start ;;; ret None
      | Some c =>
          let '(keys', ch, m) := match_round keys 0 (p - start) c in
          match m with
          | Some idx => advance ;;; ret (Some idx)
          | None =>
              if last || ch then advance ;;; matchesN_loop f start keys' (last || ch)
              else put_pos start ;;; ret None
          end
      end
  end.
Definition matchesN (keys : list string) : M (option nat) :=
  start <- get_pos ;; matchesN_loop char_fuel start (map bs keys) false.

(** bytecode.go 1181-1198: matchesWord *)
Definition word_check {A} (start : nat) (a none : A) : M A :=
  c <- peek ;;
  match c with
  | None => ret a
  | Some c => if name_char c then put_pos start ;;; ret none else ret a
  end.
Definition matches_word1 (key : string) : M bool :=
  start <- get_pos ;;
  m <- matches1 key ;;
  if m : bool then word_check start true false else ret false.
Definition matches_wordN (keys : list string) : M (option nat) :=
  start <- get_pos ;;
  m <- matchesN keys ;;
  match m with None => ret None | Some i => word_check start (Some i) None end.

(** bytecode.go 1308-1339: parseAndWriteName; gives the length of the name.  [n] is
    nameLength (uint8, at most 255 by the check). *)
Fixpoint name_loop (fuel : nat) (n : N) : M N :=
  match fuel with
  | O => no_fuel
  | S f =>
      c <- next_char ;;
      if name_char c then
        append [c] ;;; advance ;;;
        (if n + 1 =? 255 then err (bs "names cannot be longer than 254 chars")
         else name_loop f (n + 1))
      else ret n
  end.
Definition parse_name : M N :=
  c <- next_char ;;
  if name_start c then append [c] ;;; advance ;;; name_loop char_fuel 1
  else ret 0.

(** bytecode_instructions.go 56-60, 62-64, 79-82, 94-98, 112-114, 130-136, 147-149, 161-203, 218-220, 235-237 *)
Definition inst_operation (kind : N) : M unit := append [0; 111; kind; 102; 0].
Definition inst_operation_args : M unit := append [0; 65].
Definition inst_operation_arg : M nat := append [0; 97; 0; 0; 0; 0] ;;; l <- res_len ;; ret (l - 4)%nat.
Definition inst_fragment : M unit := append [0; 70].
Definition inst_field : M unit := append [0; 102; 0; 0; 0; 0; 0; 0; 0; 0; 0].
Definition inst_spread (inline : bool) : M unit :=
  append [0; 115; (if inline then 116 else 102); 0; 0; 0; 0; 0].
Definition inst_directive : M unit := append [0; 100; 102].
Definition inst_value (kind : N) : M unit := append [0; 118; kind; 0; 0; 0; 0].
Definition inst_bool (v : bool) : M unit := append [0; 118; 98; 1; 0; 0; 0; (if v then 49 else 48)].
Definition inst_object_field : M unit := append [0; 117].
Definition inst_end : M unit := append [0; 101].

(** the pattern "ctx.writeUint32(uint32(len(ctx.Res)-start), start-back)" *)
(* bytecode.go 627, 657, 700, 725 *)
Definition write_len (start back : nat) : M unit :=
  l <- res_len ;; write32 (N.of_nat (l - start)) (start - back).

(** ** Numbers: bytecode.go 812-935 *)

(** bytecode.go 836-856: the first digits; [Some c] when the loop ended on '.', 'e' or 'E' with that character *)
Fixpoint num_int_loop (fuel : nat) (c : N) : M (option N) :=
  match fuel with
  | O => no_fuel
  | S f =>
      let continue_ := advance ;;; c' <- next_char ;; num_int_loop f c' in
      if digit c then append [c] ;;; continue_
      else if (c =? cDOT) || (c =? 101) || (c =? 69) then ret (Some c)
      else if c =? cUND then continue_
      else
        e <- (if is_punctuator c then ret true else
                ig <- is_ignored_token c ;; if ig : bool then ret true else ret (c =? cCOMMA)) ;;
        if e : bool then ret None
        else err (msg_c "unexpected character in int or float value, char: """ c """")
  end.

(** bytecode.go 862-886: the digits after the dot; [Some c] when 'e' or 'E' was read *)
Fixpoint num_frac_loop (fuel : nat) : M (option N) :=
  match fuel with
  | O => no_fuel
  | S f =>
      advance ;;; c <- next_char ;;
      if digit c then append [c] ;;; num_frac_loop f
      else if (c =? 101) || (c =? 69) then ret (Some c)
      else if c =? cUND then num_frac_loop f
      else if c =? cDOT then err (msg_c "unexpected character in float value, char: """ c """")
      else
        e <- (if is_punctuator c then ret true else
                ig <- is_ignored_token c ;; if ig : bool then ret true else ret (c =? cCOMMA)) ;;
        if e : bool then ret None
        else err (msg_c "unexpected character in float value, char: """ c """")
  end.

(** bytecode.go 909-931: the digits of the exponent *)
Fixpoint num_exp_loop (fuel : nat) (c : N) : M unit :=
  match fuel with
  | O => no_fuel
  | S f =>
      let continue_ := advance ;;; c' <- next_char ;; num_exp_loop f c' in
      if digit c then append [c] ;;; continue_
      else if (c =? 101) || (c =? 69) || (c =? cDOT) then
        err (msg_c "unexpected character in float value, char: """ c """")
      else if c =? cUND then continue_
      else
        e <- (if is_punctuator c then ret true else
                ig <- is_ignored_token c ;; if ig : bool then ret true else ret (c =? cCOMMA)) ;;
        if e : bool then ret tt
        else err (msg_c "unexpected character in float value, char: """ c """")
  end.

(** bytecode.go 812-935: parseNumberInputValue *)
Definition parse_number : M unit :=
  inst_value 105 ;;;
  start <- res_len ;;
  let type_at := (start - 5)%nat in
  c0 <- current_c ;;
  c <- (if c0 =? cMINUS then advance ;;; append [cMINUS] ;;; next_char
        else if c0 =? cPLUS then advance ;;; next_char
        else ret c0) ;;
  stop <- num_int_loop char_fuel c ;;
  match stop with
  | None => write_len start 4
  | Some c =>
      stop <- (if c =? cDOT then
                 store type_at 102 ;;; append [cDOT] ;;; num_frac_loop char_fuel
               else ret (Some c)) ;;
      match stop with
      | None => write_len start 4
      | Some c =>
          (* here c is 'e' or 'E' *)
          store type_at 102 ;;; append [69] ;;;
          advance ;;; c <- next_char ;;
          c <- (if (c =? cPLUS) || (c =? cMINUS) then
                  (if c =? cMINUS then append [c] else ret tt) ;;;
                  advance ;;; next_char
                else ret c) ;;
          num_exp_loop char_fuel c ;;;
          write_len start 4
      end
  end.

(** ** Strings: bytecode.go 937-1092 *)

(** bytecode.go 945-957: white space at the start of a block string *)
Fixpoint block_trim_start (fuel : nat) : M unit :=
  match fuel with
  | O => no_fuel
  | S f =>
      c <- next_char ;;
      if (c =? cSP) || (c =? cTAB) || (c =? cLF) || (c =? cCR) then advance ;;; block_trim_start f
      else retreat
  end.

(** bytecode.go 988-999: white space at the start of a line of a block string *)
Fixpoint block_trim_line (fuel : nat) : M unit :=
  match fuel with
  | O => no_fuel
  | S f =>
      advance ;;; c <- next_char ;;
      if (c =? cSP) || (c =? cTAB) then block_trim_line f else retreat
  end.

(** bytecode.go 1011-1018: trailing line ends and spaces are cut off; works on the reversed ctx.Res.
    An empty ctx.Res panics. *)
Fixpoint trim_rev (l : bytes) : option bytes :=
  match l with
  | [] => None
  | c :: r => if (c =? cLF) || (c =? cCR) || (c =? cSP) then trim_rev r else Some l
  end.
Definition block_trim_end : M unit :=
  fun s => match trim_rev (rev (p_res s)) with
           | Some l => Ok tt (set_res (rev l) s)
           | None => Panic
           end.

(** bytecode.go 1047-1082: the four digits of a unicode escape *)
Definition unicode_escape : M unit :=
  advance ;;; c1 <- peek ;; advance ;;; c2 <- peek ;; advance ;;; c3 <- peek ;; advance ;;; c4 <- peek ;;
  match c4 with
  | None => unexpected_eof
  | Some c4 =>
      let d o := match o with Some c => c | None => 0 end in
      match hex_val (d c1), hex_val (d c2), hex_val (d c3), hex_val c4 with
      | Some a, Some b, Some c, Some e =>
          (* utf16.Decode of one unit: surrogates become U+FFFD, which utf8_encode does *)
          append (utf8_encode (a * 4096 + b * 256 + c * 16 + e))
      | _, _, _, _ => err (bs "encoding/hex: invalid byte")
      end
  end.

(** bytecode.go 1025-1088: an escape sequence; charNr is at the backslash *)
Definition string_escape : M unit :=
  advance ;;; c <- next_char ;;
  if c =? 0 then ret tt
  else if (c =? cLF) || (c =? cCR) then err (bs "newline and carriage returns not allowed in strings")
  else if c =? 98 then append [8]
  else if c =? 102 then append [12]
  else if c =? 110 then append [10]
  else if c =? 114 then append [13]
  else if c =? 116 then append [9]
  else if c =? 117 then unicode_escape
  else append [c].

(** bytecode.go 961-1091: mainLoop *)
Fixpoint string_loop (fuel : nat) (block : bool) (start : nat) : M unit :=
  match fuel with
  | O => no_fuel
  | S f =>
      advance ;;; c <- next_char ;;
      if c =? 0 then string_loop f block start
      else if (c =? cLF) || (c =? cCR) then
        if negb block then err (bs "newline and carriage returns not allowed in strings")
        else
          append [c] ;;;
          (if c =? cCR then
             n <- peek_next ;;
             match n with
             | Some n => if n =? cLF then append [cLF] ;;; advance else ret tt
             | None => ret tt
             end
           else ret tt) ;;;
          block_trim_line char_fuel ;;;
          string_loop f block start
      else
        let other :=
          if c =? cBSL then string_escape ;;; string_loop f block start
          else append [c] ;;; string_loop f block start in
        if c =? cQUOT then
          if negb block then advance ;;; write_len start 4
          else
            m <- matches1 """""""" ;;
            if m : bool then block_trim_end ;;; write_len start 4 else other
        else other
  end.

(** bytecode.go 937-1092: parseStringInputValue *)
Definition parse_string : M unit :=
  inst_value 115 ;;;
  start <- res_len ;;
  block <- matches1 """""""" ;;
  (if block : bool then block_trim_start char_fuel else ret tt) ;;;
  string_loop char_fuel block start.

(** ** Values: bytecode.go 646-810 *)

Fixpoint parse_value (fuel : nat) : M unit :=        (* bytecode.go 706-810: parseInputValue *)
  match fuel with
  | O => no_fuel
  | S f =>
      c <- next_token ;;
      if c =? cDOLLAR then
        advance ;;; inst_value 36 ;;;
        start <- res_len ;;
        n <- parse_name ;;
        if n =? 0 then err_cur "variable input should have a name, got character: """ """"
        else write_len start 4
      else if (c =? cMINUS) || (c =? cPLUS) || (c =? cDOT) || digit c then parse_number
      else if c =? cQUOT then parse_string
      else if c =? cLBRK then
        advance ;;; inst_value 108 ;;;
        start <- res_len ;;
        c <- next_token ;;
        if c =? cRBRK then advance ;;; inst_end ;;; write_len start 4
        else parse_list f start
      else if c =? cLBR then advance ;;; parse_assignments f cRBR
      else
        kw <- (if (c =? 116) || (c =? 102) then
                 m <- matches_wordN ["false"; "true"]%string ;;
                 match m with
                 | Some i => inst_bool (Nat.eqb i 1) ;;; ret true
                 | None => ret false
                 end
               else if c =? 110 then
                 m <- matches_word1 "null" ;;
                 if m : bool then inst_value 110 ;;; ret true else ret false
               else ret false) ;;
        if kw : bool then ret tt
        else
          inst_value 101 ;;;
          start <- res_len ;;
          n <- parse_name ;;
          if n =? 0 then err_cur "unknown value kind, got character: """ """"
          else write_len start 4
  end
with parse_list (fuel : nat) (start : nat) : M unit :=   (* bytecode.go 754-779: the loop over list items *)
  match fuel with
  | O => no_fuel
  | S f =>
      parse_value f ;;;
      c <- next_token ;;
      c <- (if c =? cCOMMA then advance ;;; next_token else ret c) ;;
      if c =? cRBRK then advance ;;; inst_end ;;; write_len start 4
      else parse_list f start
  end
with parse_assignments (fuel : nat) (closure : N) : M unit :=  (* bytecode.go 646-659: parseAssignmentSet *)
  match fuel with
  | O => no_fuel
  | S f =>
      inst_value 111 ;;;
      start <- res_len ;;
      c <- next_token ;;
      if c =? closure then inst_end ;;; advance ;;; write_len start 4
      else parse_assignment_list f closure start
  end
with parse_assignment_list (fuel : nat) (closure : N) (start : nat) : M unit := (* bytecode.go 661-703 *)
  match fuel with
  | O => no_fuel
  | S f =>
      inst_object_field ;;;
      n <- parse_name ;;
      if n =? 0 then err_cur "expected name character but got: """ """"
      else
        c <- next_token ;;
        if negb (c =? cCOLON) then err (msg_c "expected "":"" but got """ c """")
        else
          advance ;;;
          parse_value f ;;;
          c <- next_token ;;
          c <- (if c =? cCOMMA then advance ;;; next_token else ret c) ;;
          if c =? closure then inst_end ;;; advance ;;; write_len start 4
          else parse_assignment_list f closure start
  end.

(** ** Directives: bytecode.go 336-377.  Returns the count and whether a critical error
    occurred; a critical error of a callee is turned into a pair so that the caller can
    store the count first. *)
Definition with_count (n : N) (m : M unit) : M bool :=
  fun s => match m s with
           | Ok _ s' => Ok false s'
           | Crit s' => Ok true s'
           | Panic => Panic
           | NoFuel => NoFuel
           end.
Fixpoint directives_loop (fuel : nat) (n : N) : M (N * bool) :=
  match fuel with
  | O => no_fuel
  | S f =>
      co <- might_ignore ;;
      match co with
      | None => crit <- with_count n unexpected_eof ;; ret (n, crit)
      | Some c =>
          if negb (c =? cAT) then ret (n, false)
          else if n =? 255 then
            crit <- with_count n (err (bs "cannot have more than 255 directives")) ;; ret (n, crit)
          else
            let n := n + 1 in
            advance ;;; inst_directive ;;;
            l <- res_len ;;
            let flag := (l - 1)%nat in
            crit <- with_count n
              (len <- parse_name ;;
               if len =? 0 then err_cur "expected directive name but got char """ """"
               else
                 c <- next_token ;;
                 if negb (c =? cLPAR) then ret tt
                 else store flag 116 ;;; advance ;;; parse_assignments f cRPAR) ;;
            if crit : bool then ret (n, true) else directives_loop f n
      end
  end.
(** bytecode.go 156-160, 502-506, 584-588: "amount, criticalErr := ctx.parseDirectives();
    ctx.Res[directivesCountLocation] = amount; if criticalErr { return criticalErr }" *)
Definition parse_directives (fuel : nat) (count_at : nat) : M unit :=
  finally (directives_loop fuel 0) (fun n => store count_at n) ;;; ret tt.

(** ** Selection sets: bytecode.go 439-642 *)

(** bytecode.go 246-252, 526-532, 629-635: optional comma *)
Definition opt_comma (c : N) : M N :=
  if c =? cCOMMA then advance ;;; next_token else ret c.

(** ctx.Hasher.Write(ctx.Res[from:from+n]); ctx.Res[startField-4..] = Sum32: bytecode.go 574-580.
    The slice expression panics when out of range. *)
Definition hash_name (from n at_ : nat) : M unit :=
  fun s => if Nat.leb (from + n) (length (p_res s))
           then write32 (fnv1 (firstn n (skipn from (p_res s)))) at_ s
           else Panic.

(** ctx.Res = ctx.Res[:len(ctx.Res)-12]: bytecode.go 464 *)
Definition drop12 : M unit :=
  fun s => if Nat.leb 12 (length (p_res s))
           then Ok tt (set_res (firstn (length (p_res s) - 12) (p_res s)) s)
           else Panic.

Fixpoint parse_selection_set (fuel : nat) : M unit :=   (* bytecode.go 439-448 *)
  match fuel with
  | O => no_fuel
  | S f =>
      c <- next_token ;;
      if c =? cRBR then advance else selection_loop f
  end
with selection_loop (fuel : nat) : M unit :=            (* bytecode.go 450-641 *)
  match fuel with
  | O => no_fuel
  | S f =>
      inst_field ;;;
      start_field <- res_len ;;
      let count_at := (start_field - 9)%nat in
      append [0] ;;;
      alen <- parse_name ;;
      store start_field alen ;;;
      if alen =? 0 then
        drop12 ;;;
        m <- matches1 "..." ;;
        if m : bool then
          next_token ;;;
          inline <- matches_word1 "on" ;;
          (if inline : bool then next_token ;;; ret tt else ret tt) ;;;
          inst_spread inline ;;;
          start_fragment <- res_len ;;
          let count_at := (start_fragment - 5)%nat in
          nlen <- parse_name ;;
          c <- next_token ;;
          if nlen =? 0 then
            if inline : bool then err (msg_c "expected fragment type name but got char: """ c """")
            else err (msg_c "expected fragment name but got char: """ c """")
          else
            c <- (if c =? cAT then parse_directives f count_at ;;; current_c else ret c) ;;
            c <- (if inline : bool then
                    if negb (c =? cLBR) then
                      err (msg_c "expected selection set open (""{"") on inline fragment but got """ c """")
                    else
                      advance ;;;
                      catch (parse_selection_set f) ;;;
                      inst_end ;;;
                      next_token
                  else ret c) ;;
            write_len start_fragment 4 ;;;
            c <- opt_comma c ;;
            if c =? cRBR then advance else selection_loop f
        else err_cur "unexpected character, expected valid name or selection closure but got: """ """"
      else
        c <- next_token ;;
        name_len_at <- res_len ;;
        append [0] ;;;
        c <- (if c =? cCOLON then
                advance ;;;
                next_token ;;;
                nlen <- parse_name ;;
                if nlen =? 0 then err (msg_c "unexpected character, expected valid name char but got """ c """")
                else
                  store name_len_at nlen ;;;
                  c <- next_token ;;
                  hash_name (name_len_at + 1) (N.to_nat nlen) (start_field - 4) ;;; ret c
              else
                hash_name (start_field + 1) (N.to_nat alen) (start_field - 4) ;;; ret c) ;;
        c <- (if c =? cAT then parse_directives f count_at ;;; current_c else ret c) ;;
        c <- (if c =? cLPAR then
                advance ;;; next_token ;;; parse_assignments f cRPAR ;;; next_token
              else ret c) ;;
        c <- (if c =? cLBR then
                advance ;;; parse_selection_set f ;;; next_token
              else ret c) ;;
        inst_end ;;;
        write_len start_field 8 ;;;
        c <- opt_comma c ;;
        if c =? cRBR then advance else selection_loop f
  end.

(** ** Operation arguments: bytecode.go 237-334, 379-437 *)

Fixpoint parse_type (fuel : nat) (c : N) : M unit :=    (* bytecode.go 379-437: parseGraphqlTypeName *)
  match fuel with
  | O => no_fuel
  | S f =>
      loc <- res_len ;;
      if c =? cLBRK then
        append [108] ;;; advance ;;;
        c <- next_token ;;
        parse_type f c ;;;
        c <- next_token ;;
        if negb (c =? cRBRK) then err (msg_c "expected list closure (""]"") but got """ c """")
        else
          advance ;;; c <- next_char ;;
          if c =? cBANG then store loc 76 ;;; advance else ret tt
      else
        append [110] ;;;
        n <- parse_name ;;
        if n =? 0 then err_cur "invalid typename char """ """"
        else
          c <- next_token ;;
          if c =? cBANG then store loc 78 ;;; advance else ret tt
  end.

Definition parse_operator_arg (fuel : nat) : M unit :=  (* bytecode.go 271-334: parseOperatorArgument *)
  l <- res_len ;;
  let start := (l + 1)%nat in
  len_at <- inst_operation_arg ;;
  n <- parse_name ;;
  if n =? 0 then err_cur "expected argument name but got """ """"
  else
    c <- next_token ;;
    if negb (c =? cCOLON) then err_cur "expected "":"" name but got """ """"
    else
      advance ;;;
      append [0] ;;;
      c <- next_token ;;
      parse_type fuel c ;;;
      append [0] ;;;
      c <- next_token ;;
      (if c =? cEQ then
         append [116] ;;; advance ;;; next_token ;;; parse_value fuel
       else append [102]) ;;;
      l <- res_len ;;
      write32 (N.of_nat (l - start)) len_at.

Fixpoint operator_args_loop (fuel : nat) : M unit :=    (* bytecode.go 240-268 *)
  match fuel with
  | O => no_fuel
  | S f =>
      c <- next_token ;;
      c <- opt_comma c ;;
      if c =? cRPAR then advance ;;; inst_end
      else if negb (c =? cDOLLAR) then err (msg_c "expected ""$"" but got """ c """")
      else advance ;;; parse_operator_arg f ;;; operator_args_loop f
  end.
Definition parse_operator_args (fuel : nat) : M unit := (* bytecode.go 237-269: parseOperatorArguments *)
  inst_operation_args ;;; operator_args_loop fuel.

(** ** Operations and fragments: bytecode.go 89-235 *)

(* bytecode.go 98, 104, 130 *)
Definition set_target (n : nat) : M unit :=
  fun s => Ok tt (PS (p_res s) (p_frags s) (p_pos s) (p_errs s) (Some n)).
Definition push_fragment : M unit :=                    (* bytecode.go 167 *)
  fun s => Ok tt (PS (p_res s) (p_frags s ++ [length (p_res s) + 1]%nat) (p_pos s) (p_errs s) (p_tgt s)).
(** ctx.Res[startOfName:], bytecode.go 128 *)
Definition res_from (n : nat) : M bytes := fun s => Ok (skipn n (p_res s)) s.

(** bytecode.go 101-165: header of an operation that starts with a keyword *)
Definition parse_operation_header (fuel : nat) (start : nat) (kw : nat) : M unit :=
  (if negb has_target then set_target start else ret tt) ;;;
  inst_operation (match kw with O => 113 | S O => 109 | _ => 115 end) ;;;
  l <- res_len ;;
  let flag := (l - 2)%nat in
  let count_at := (l - 1)%nat in
  next_token ;;;
  start_name <- res_len ;;
  parse_name ;;;
  name <- res_from start_name ;;
  (match name, target with
   | _ :: _, Some t => if has_target && beqb name t then set_target start else ret tt
   | _, _ => ret tt
   end) ;;;
  c <- next_token ;;
  (if c =? cLPAR then
     store flag 116 ;;;
     append [0; 0; 0; 0; 0] ;;;
     args_start <- res_len ;;
     advance ;;;
     parse_operator_args fuel ;;;
     l <- res_len ;;
     write32 (N.of_nat (l - args_start)) (args_start - 4)
   else ret tt) ;;;
  parse_directives fuel count_at ;;;
  c <- current_c ;;
  if negb (c =? cLBR) then err (msg_c "expected selection set opener (""{"") but got """ c """")
  else ret tt.

(** bytecode.go 166-223: header of a fragment *)
Definition parse_fragment_header : M unit :=
  push_fragment ;;;
  inst_fragment ;;;
  next_token ;;;
  n <- parse_name ;;
  if n =? 0 then err_cur "expected fragment name but got """ """"
  else
    c <- next_token ;;
    if negb (c =? 111) then err (msg_c "expected ""on"" keyword but got """ c """")
    else
      advance ;;; c <- next_char ;;
      if negb (c =? 110) then err (msg_c "expected ""on"" keyword but got """ c """")
      else
        advance ;;;
        next_token ;;;
        append [0] ;;;
        n <- parse_name ;;
        if n =? 0 then err_cur "expected fragment type target but got """ """"
        else
          c <- next_token ;;
          if negb (c =? cLBR) then err (msg_c "expected selection set opener (""{"") but got """ c """")
          else ret tt.

(** bytecode.go 89-235: parseOperatorOrFragment; [true] = stop at the end of the query *)
Definition parse_definition (fuel : nat) : M bool :=
  co <- might_ignore ;;
  match co with
  | None => ret true
  | Some c =>
      start <- res_len ;;
      (if c =? cLBR then
         (if negb has_target then set_target start else ret tt) ;;;
         inst_operation 113
       else
         m <- matchesN ["query"; "mutation"; "subscription"]%string ;;
         match m with
         | Some kw => parse_operation_header fuel start kw
         | None =>
             m <- matches1 "fragment" ;;
             if m : bool then parse_fragment_header
             else err (msg_c "expected query, mutation, subscription or a simple query (""{...}"") but got """ c """")
         end) ;;;
      advance ;;;
      parse_selection_set fuel ;;;
      inst_end ;;;
      ret false
  end.

(** bytecode.go 70-77: the loop of ParseQueryToBytecode *)
Fixpoint definitions_loop (n fuel : nat) : M unit :=
  match n with
  | O => no_fuel
  | S n' =>
      stop <- parse_definition fuel ;;
      if stop : bool then ret tt else definitions_loop n' fuel
  end.

(* bytecode.go 46-57 *)
Definition init_pst : pst := PS [] [] 0 [] None.

(** bytecode.go 45-78: ParseQueryToBytecode without the cache (CacheModel.v adds it): the state in which the parse
    ends, whether normally or by a critical error. *)
Inductive parse_result := Parsed (s : pst) | ParsePanic | ParseNoFuel.
Definition value_fuel : nat := 8 * length q + 16.
Definition parse_query : parse_result :=
  match definitions_loop char_fuel value_fuel init_pst with
  | Ok _ s => Parsed s
  | Crit s => Parsed s
  | Panic => ParsePanic
  | NoFuel => ParseNoFuel
  end.

End Parser.
