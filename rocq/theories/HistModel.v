(** * Model of Resolve on a schema that has handled requests before: resolver.go 163-298 with the
    query cache of bytecode/bytecode.go 45-78 (CacheModel.v).

    What a schema keeps between requests and Resolve does not reset: the reflect values
    (resolver.go 189) and the parser context with the cache (resolver.go 175).  Everything else is
    reset before use (s.Result 170, path 178, variablesParsed 181, currentReflectValueIdx 190) or is
    storage only (funcInputs 191, which callQlMethod truncates, 624). *)
From Coq Require Import NArith List.
From Verif Require Import Base ParserModel CacheModel Schema ResModel EnvModel.
Import ListNotations.

(** resolver.go 163-298: [vals] and [p] are what is left of earlier requests; [min] is
    CacheableQueryMinLen (resolver.go 30, bytecode.go 58) and [dels] the keys the cache would delete *)
Definition resolve_on {W} (grow : nat -> nat) (X : externals W) (S : schema) (fuel : nat) (min : nat) (dels : list nat)
  (p : pctx) (vals : N -> rv) (o : ropts) (w : W) (q : bytes) : rresult W * option pctx :=
  match parse_cached grow p (Call q (target_of o) min dels) with
  | Some (u, p') => (resolve_parsed X S fuel o (o_errs u) (o_code u) (o_frags u) (o_tidx u) vals w, Some p')
  | None => (RPanicked, None)
  end.
