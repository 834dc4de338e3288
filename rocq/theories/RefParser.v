(** * An executable reading of Grammar.v (proof device).

    [r_x fuel text = Some (x, rest)] iff [g_x x text rest] (for enough fuel): recursive descent on
    plain text, no positions, no bytecode.  It is the bridge between the grammar and the
    model of the Go parser; no property is stated with it. *)
From Coq Require Import String NArith Bool List Lia.
From Verif Require Import Base Ast Grammar.
Import ListNotations.
Open Scope N_scope.

Definition letterb (c : N) : bool := ((97 <=? c) && (c <=? 122)) || ((65 <=? c) && (c <=? 90)) || (c =? cUND).
Definition digitb (c : N) : bool := (48 <=? c) && (c <=? 57).
Definition ncharb (c : N) : bool := letterb c || digitb c.

Fixpoint span (p : N -> bool) (l : bytes) : bytes * bytes :=
  match l with
  | c :: r => if p c then let (a, b) := span p r in (c :: a, b) else ([], l)
  | [] => ([], [])
  end.

Definition r_name (l : bytes) : option (bytes * bytes) :=
  match l with
  | c :: _ =>
      if letterb c then
        let (n, r) := span ncharb l in
        match r with
        | [] => None
        | _ => if Nat.leb (length n) 254 then Some (n, r) else None
        end
      else None
  | [] => None
  end.

Fixpoint strip (p l : bytes) : option bytes :=
  match p, l with
  | [], _ => Some l
  | x :: p', y :: l' => if x =? y then strip p' l' else None
  | _, _ => None
  end.

Definition r_sign (l : bytes) : bytes * bytes :=
  match l with
  | c :: r => if c =? cMINUS then ([cMINUS], r) else if c =? cPLUS then ([], r) else ([], l)
  | [] => ([], [])
  end.
Definition dugb (c : N) : bool := digitb c || (c =? cUND).
Definition num_stopb (c : N) : bool :=
  (c =? cBANG) || (c =? cDOLLAR) || (c =? cLPAR) || (c =? cRPAR) || (c =? cCOLON)
  || (c =? cEQ) || (c =? cAT) || (c =? cLBRK) || (c =? cRBRK) || (c =? cLBR) || (c =? cBAR) || (c =? cRBR)
  || (c =? cCOMMA) || (c =? cHASH) || (c =? cSP) || (c =? cTAB) || (c =? cLF) || (c =? cCR) || (c =? cNUL).
Definition stopped (l : bytes) : bool := match l with c :: _ => num_stopb c | [] => false end.

Definition r_exp_tail (l : bytes) : option (bytes * bytes) :=   (* behind the e *)
  let (s, l1) := r_sign l in
  let (d, l2) := span dugb l1 in
  if stopped l2 then Some (69 :: s ++ strip_und d, l2) else None.
Definition r_number (l : bytes) : option (value * bytes) :=
  let (s, l1) := r_sign l in
  let (d, l2) := span dugb l1 in
  match l2 with
  | [] => None
  | c :: l3 =>
      if (c =? 101) || (c =? 69) then
        match r_exp_tail l3 with
        | Some (e, r) => Some (VFloat (s ++ strip_und d ++ e), r)
        | None => None
        end
      else if c =? cDOT then
        let (f, l4) := span dugb l3 in
        match l4 with
        | [] => None
        | c' :: l5 =>
            if (c' =? 101) || (c' =? 69) then
              match r_exp_tail l5 with
              | Some (e, r) => Some (VFloat (s ++ strip_und d ++ cDOT :: strip_und f ++ e), r)
              | None => None
              end
            else if num_stopb c' then Some (VFloat (s ++ strip_und d ++ cDOT :: strip_und f), l4)
            else None
        end
      else if num_stopb c then Some (VInt (s ++ strip_und d), l2)
      else None
  end.

Definition hexv (c : N) : option N :=
  if digitb c then Some (c - 48)
  else if (97 <=? c) && (c <=? 102) then Some (c - 87)
  else if (65 <=? c) && (c <=? 70) then Some (c - 55)
  else None.

(** An escape sequence behind the backslash: decoded form and rest. *)
Definition r_escape (l : bytes) : option (bytes * bytes) :=
  match l with
  | [] => None
  | c :: r =>
      if c =? 0 then Some ([], r)
      else if (c =? 10) || (c =? 13) then None
      else if c =? 98 then Some ([8], r)
      else if c =? 102 then Some ([12], r)
      else if c =? 110 then Some ([10], r)
      else if c =? 114 then Some ([13], r)
      else if c =? 116 then Some ([9], r)
      else if c =? 117 then
        match r with
        | c1 :: c2 :: c3 :: c4 :: r' =>
            match hexv c1, hexv c2, hexv c3, hexv c4 with
            | Some a, Some b, Some d, Some e => Some (utf8_encode (a * 4096 + b * 256 + d * 16 + e), r')
            | _, _, _, _ => None
            end
        | _ => None
        end
      else Some ([c], r)
  end.

Fixpoint r_chars (fuel : nat) (l : bytes) : option (bytes * bytes) :=
  match fuel with
  | O => None
  | S f =>
      match l with
      | [] => None
      | c :: r =>
          if c =? 0 then r_chars f r
          else if (c =? 10) || (c =? 13) then None
          else if c =? cQUOT then Some ([], r)
          else if c =? cBSL then
            match r_escape r with
            | Some (e, r') => match r_chars f r' with Some (d, x) => Some (e ++ d, x) | None => None end
            | None => None
            end
          else match r_chars f r with Some (d, x) => Some (c :: d, x) | None => None end
      end
  end.

Definition pre (p : bytes) (o : option (bytes * bytes)) : option (bytes * bytes) :=
  match o with Some (d, x) => Some (p ++ d, x) | None => None end.

Fixpoint r_block (fuel : nat) (l : bytes) : option (bytes * bytes) :=
  match fuel with
  | O => None
  | S f =>
      match l with
      | [] => None
      | c :: r =>
          if c =? 0 then r_block f r
          else if c =? 10 then pre [10] (r_block f (drop_blank r))
          else if c =? 13 then
            match strip [10] r with
            | Some r' => pre [13; 10] (r_block f (drop_blank r'))
            | None => pre [13] (r_block f (drop_blank r))
            end
          else if c =? cQUOT then
            match strip triple l with
            | Some r' => Some ([], r')
            | None => pre [cQUOT] (r_block f r)
            end
          else if c =? cBSL then
            match r_escape r with
            | Some (e, r') => pre e (r_block f r')
            | None => None
            end
          else pre [c] (r_block f r)
      end
  end.

(** [l] starts with the opening quote *)
Definition r_string (l : bytes) : option (bytes * bytes) :=
  match strip triple l with
  | Some r => match r_block (S (length l)) (drop_white r) with
              | Some (d, x) => Some (trim_end d, x)
              | None => None
              end
  | None => match l with _ :: r => r_chars (S (length l)) r | [] => None end
  end.

Definition no_name_followsb (l : bytes) : bool := match l with [] => true | c :: _ => negb (ncharb c) end.
Definition r_word (w l : bytes) : option bytes :=
  match strip w l with
  | Some r => if no_name_followsb r then Some r else None
  | None => None
  end.

Definition num_startb (c : N) : bool := (c =? cMINUS) || (c =? cPLUS) || (c =? cDOT) || digitb c.

(** value starting at a token, that is not a list or an object *)
Definition r_scalar (c : N) (l1 : bytes) : option (value * bytes) :=
  if c =? cDOLLAR then match r_name l1 with Some (n, r) => Some (VVar n, r) | None => None end
  else if num_startb c then r_number (c :: l1)
  else if c =? cQUOT then match r_string (c :: l1) with Some (d, r) => Some (VStr d, r) | None => None end
  else match r_word (bs "true") (c :: l1) with
       | Some r => Some (VBool true, r)
       | None =>
       match r_word (bs "false") (c :: l1) with
       | Some r => Some (VBool false, r)
       | None =>
       match r_word (bs "null") (c :: l1) with
       | Some r => Some (VNull, r)
       | None => match r_name (c :: l1) with Some (n, r) => Some (VEnum n, r) | None => None end
       end end end.

Fixpoint r_value (fuel : nat) (l : bytes) : option (value * bytes) :=
  match fuel with
  | O => None
  | S f =>
      match skip_ign l with
      | [] => None
      | c :: l1 =>
          if c =? cLBRK then
            match skip_ign l1 with
            | [] => None
            | c2 :: r => if c2 =? cRBRK then Some (VList [], r)
                         else match r_items f (c2 :: r) with Some (vs, r) => Some (VList vs, r) | None => None end
            end
          else if c =? cLBR then
            match r_assign f cRBR l1 with Some (fs, r) => Some (VObj fs, r) | None => None end
          else r_scalar c l1
      end
  end
with r_items (fuel : nat) (l : bytes) : option (list value * bytes) :=
  match fuel with
  | O => None
  | S f =>
      match r_value f l with
      | None => None
      | Some (v, l1) =>
          match sep l1 with
          | [] => None
          | c :: r => if c =? cRBRK then Some ([v], r)
                      else match r_items f (c :: r) with Some (vs, r) => Some (v :: vs, r) | None => None end
          end
      end
  end
with r_assign (fuel : nat) (cl : N) (l : bytes) : option (list (bytes * value) * bytes) :=
  match fuel with
  | O => None
  | S f =>
      match skip_ign l with
      | [] => None
      | c :: r => if c =? cl then Some ([], r) else r_fields f cl (c :: r)
      end
  end
with r_fields (fuel : nat) (cl : N) (l : bytes) : option (list (bytes * value) * bytes) :=
  match fuel with
  | O => None
  | S f =>
      match r_name l with
      | None => None
      | Some (n, l1) =>
          match skip_ign l1 with
          | [] => None
          | c :: l2 =>
              if c =? cCOLON then
                match r_value f l2 with
                | None => None
                | Some (v, l3) =>
                    match sep l3 with
                    | [] => None
                    | c :: r => if c =? cl then Some ([(n, v)], r)
                                else match r_fields f cl (c :: r) with
                                     | Some (fs, r) => Some ((n, v) :: fs, r) | None => None end
                    end
                end
              else None
          end
      end
  end.

(** [n] directives were read before *)
Fixpoint r_dirs (fuel : nat) (n : N) (l : bytes) : option (list directive * bytes) :=
  match fuel with
  | O => None
  | S f =>
      match skip_ign l with
      | [] => None
      | c :: l1 =>
          if negb (c =? cAT) then Some ([], c :: l1)
          else if n =? 255 then None
          else match r_name l1 with
               | None => None
               | Some (nm, l2) =>
                   match skip_ign l2 with
                   | [] => None
                   | c :: l3 =>
                       if negb (c =? cLPAR) then
                         match r_dirs f (n + 1) (c :: l3) with
                         | Some (ds, r) => Some (Dir nm None :: ds, r) | None => None end
                       else
                         match r_assign f cRPAR l3 with
                         | None => None
                         | Some (fs, l4) =>
                             match r_dirs f (n + 1) l4 with
                             | Some (ds, r) => Some (Dir nm (Some fs) :: ds, r) | None => None end
                         end
                   end
               end
      end
  end.

Definition r_alias (l : bytes) : option (option bytes * bytes * bytes) :=
  match r_name l with
  | None => None
  | Some (n, l1) =>
      match skip_ign l1 with
      | [] => None
      | c :: r =>
          if c =? cCOLON then
            match r_name (skip_ign r) with
            | None => None
            | Some (n2, l3) =>
                match skip_ign l3 with
                | [] => None
                | l4 => Some (Some n, n2, l4)
                end
            end
          else Some (None, n, c :: r)
      end
  end.

Definition r_opt_args (fuel : nat) (l : bytes) : option (option (list (bytes * value)) * bytes) :=
  match l with
  | [] => None
  | c :: l1 =>
      if c =? cLPAR then
        match r_assign fuel cRPAR l1 with
        | None => None
        | Some (fs, l2) => match skip_ign l2 with [] => None | r => Some (Some fs, r) end
        end
      else Some (None, l)
  end.

(** directives of a selection: the loop over directives is only entered at an '@' *)
Definition r_odirs (fuel : nat) (l : bytes) : option (list directive * bytes) :=
  match skip_ign l with
  | [] => None
  | c :: r => if c =? cAT then r_dirs fuel 0 l else Some ([], c :: r)
  end.

Fixpoint r_selset (fuel : nat) (l : bytes) : option (list sel * bytes) :=
  match fuel with
  | O => None
  | S f =>
      match skip_ign l with
      | [] => None
      | c :: r => if c =? cRBR then Some ([], r) else r_sels f (c :: r)
      end
  end
with r_sels (fuel : nat) (l : bytes) : option (list sel * bytes) :=
  match fuel with
  | O => None
  | S f =>
      let one :=
        match l with
        | [] => None
        | c :: _ =>
            if letterb c then
              match r_alias l with
              | None => None
              | Some (al, n, l1) =>
                  match r_odirs f l1 with
                  | None => None
                  | Some (ds, l2) =>
                      match r_opt_args f l2 with
                      | None => None
                      | Some (args, l3) =>
                          match l3 with
                          | [] => None
                          | c :: l4 =>
                              if c =? cLBR then
                                match r_selset f l4 with
                                | None => None
                                | Some (ss, l5) =>
                                    match skip_ign l5 with
                                    | [] => None
                                    | r => Some (SField al n ds args ss, r)
                                    end
                                end
                              else Some (SField al n ds args [], l3)
                          end
                      end
                  end
              end
            else
              match strip (bs "...") l with
              | None => None
              | Some l1 =>
                  match r_word (bs "on") (skip_ign l1) with
                  | Some l2 =>
                      match r_name (skip_ign l2) with
                      | None => None
                      | Some (n, l3) =>
                          match r_odirs f l3 with
                          | None => None
                          | Some (ds, l4) =>
                              match l4 with
                              | [] => None
                              | c :: l5 =>
                                  if c =? cLBR then
                                    match r_selset f l5 with
                                    | None => None
                                    | Some (ss, l6) =>
                                        match skip_ign l6 with
                                        | [] => None
                                        | r => Some (SInline n ds ss, r)
                                        end
                                    end
                                  else None
                              end
                          end
                      end
                  | None =>
                      match r_name (skip_ign l1) with
                      | None => None
                      | Some (n, l3) =>
                          match r_odirs f l3 with
                          | None => None
                          | Some (ds, l4) => Some (SSpread n ds, l4)
                          end
                      end
                  end
              end
        end in
      match one with
      | None => None
      | Some (s, l1) =>
          match sep l1 with
          | [] => None
          | c :: r => if c =? cRBR then Some ([s], r)
                      else match r_sels f (c :: r) with Some (ss, r) => Some (s :: ss, r) | None => None end
          end
      end
  end.

Fixpoint r_type (fuel : nat) (l : bytes) : option (tyref * bytes) :=
  match fuel with
  | O => None
  | S f =>
      match l with
      | [] => None
      | c :: l1 =>
          if c =? cLBRK then
            match r_type f (skip_ign l1) with
            | None => None
            | Some (t, l2) =>
                match skip_ign l2 with
                | c1 :: c2 :: r =>
                    if c1 =? cRBRK then
                      if c2 =? cBANG then Some (TyList t true, r) else Some (TyList t false, c2 :: r)
                    else None
                | _ => None
                end
            end
          else
            match r_name l with
            | None => None
            | Some (n, l2) =>
                match skip_ign l2 with
                | [] => None
                | c :: r => if c =? cBANG then Some (TyName n true, r) else Some (TyName n false, c :: r)
                end
            end
      end
  end.

Definition r_default (fuel : nat) (l : bytes) : option (option value * bytes) :=
  match skip_ign l with
  | [] => None
  | c :: l1 =>
      if c =? cEQ then match r_value fuel l1 with Some (v, r) => Some (Some v, r) | None => None end
      else Some (None, c :: l1)
  end.

Definition r_oparg (fuel : nat) (l : bytes) : option (oparg * bytes) :=   (* behind the $ *)
  match r_name l with
  | None => None
  | Some (n, l2) =>
      match skip_ign l2 with
      | [] => None
      | c :: l3 =>
          if c =? cCOLON then
            match r_type fuel (skip_ign l3) with
            | None => None
            | Some (t, l4) =>
                match r_default fuel l4 with
                | None => None
                | Some (d, l5) => Some (OpArg n t d, l5)
                end
            end
          else None
      end
  end.

Fixpoint r_opargs (fuel : nat) (l : bytes) : option (list oparg * bytes) :=
  match fuel with
  | O => None
  | S f =>
      match sep l with
      | [] => None
      | c :: l1 =>
          if c =? cRPAR then Some ([], l1)
          else if c =? cDOLLAR then
            match r_oparg f l1 with
            | None => None
            | Some (a, l2) => match r_opargs f l2 with Some (r, x) => Some (a :: r, x) | None => None end
            end
          else None
      end
  end.

Definition r_opname (l : bytes) : option (bytes * bytes) :=
  match l with
  | [] => None
  | c :: _ => if letterb c then r_name l else Some ([], l)
  end.

Definition r_opt_opargs (fuel : nat) (l : bytes) : option (option (list oparg) * bytes) :=
  match skip_ign l with
  | [] => None
  | c :: l1 =>
      if c =? cLPAR then match r_opargs fuel l1 with Some (a, r) => Some (Some a, r) | None => None end
      else Some (None, c :: l1)
  end.

Definition r_op (fuel : nat) (k : opkind) (l : bytes) : option (definition * bytes) := (* behind the keyword *)
  match r_opname (skip_ign l) with
  | None => None
  | Some (n, l1) =>
      match r_opt_opargs fuel l1 with
      | None => None
      | Some (args, l2) =>
          match r_dirs fuel 0 l2 with
          | None => None
          | Some (ds, l3) =>
              match l3 with
              | [] => None
              | c :: l4 =>
                  if c =? cLBR then
                    match r_selset fuel l4 with
                    | Some (ss, r) => Some (DOp k n args ds ss, r)
                    | None => None
                    end
                  else None
              end
          end
      end
  end.

Definition r_frag (fuel : nat) (l : bytes) : option (definition * bytes) :=
  match r_name (skip_ign l) with
  | None => None
  | Some (n, l1) =>
      match strip (bs "on") (skip_ign l1) with
      | None => None
      | Some l2 =>
          match r_name (skip_ign l2) with
          | None => None
          | Some (t, l3) =>
              match skip_ign l3 with
              | [] => None
              | c :: l4 =>
                  if c =? cLBR then
                    match r_selset fuel l4 with
                    | Some (ss, r) => Some (DFrag n t ss, r)
                    | None => None
                    end
                  else None
              end
          end
      end
  end.

Definition r_def (fuel : nat) (l : bytes) : option (definition * bytes) :=
  match l with
  | [] => None
  | c :: l1 =>
      if c =? cLBR then
        match r_selset fuel l1 with
        | Some (ss, r) => Some (DOp OpQuery [] None [] ss, r)
        | None => None
        end
      else match strip (bs "query") l with
      | Some r => r_op fuel OpQuery r
      | None =>
      match strip (bs "mutation") l with
      | Some r => r_op fuel OpMutation r
      | None =>
      match strip (bs "subscription") l with
      | Some r => r_op fuel OpSubscription r
      | None =>
      match strip (bs "fragment") l with
      | Some r => r_frag fuel r
      | None => None
      end end end end
  end.

Fixpoint r_doc (n fuel : nat) (l : bytes) : option document :=
  match n with
  | O => None
  | S n' =>
      match skip_ign l with
      | [] => Some []
      | l1 => match r_def fuel l1 with
              | None => None
              | Some (d, r) => match r_doc n' fuel r with Some ds => Some (d :: ds) | None => None end
              end
      end
  end.

Definition ref_parse (q : bytes) : option document := r_doc (S (S (length q))) (8 * length q + 16) q.
