(** The Yellow Paper's trie root of a set of key/value pairs (appendices B, C and
    D), written from the paper and not from the code: RLP, hex-prefix and the
    functions c(J, i), n(J, i) and TRIE(J).  Instead of an index i, the pairs
    carry the rest of the key. *)

From Coq Require Import List Arith NArith Bool.
Import ListNotations.

Definition pairs := list (list nat * list N).

(** Appendix B: BE, the minimal big-endian representation (8 bytes suffice for
    lengths below 2^64), R_b and R_l. *)
Fixpoint be_min (fuel : nat) (n : N) : list N :=
  match fuel with
  | 0 => []
  | S f => if (n =? 0)%N then [] else be_min f (n / 256) ++ [(n mod 256)%N]
  end.
Definition BE (n : nat) : list N := be_min 8 (N.of_nat n).

Definition R_b (x : list N) : list N :=
  match x with
  | [b] => if (b <? 128)%N then [b] else [129%N; b]
  | _ => if length x <? 56 then (128 + N.of_nat (length x))%N :: x
         else (183 + N.of_nat (length (BE (length x))))%N :: BE (length x) ++ x
  end.

(** [s] is the concatenation of the RLP of the items. *)
Definition R_l (s : list N) : list N :=
  if length s <? 56 then (192 + N.of_nat (length s))%N :: s
  else (247 + N.of_nat (length (BE (length s))))%N :: BE (length s) ++ s.

(** Appendix C. *)
Fixpoint pack_pairs (x : list nat) : list N :=
  match x with
  | a :: b :: r => N.of_nat (16 * a + b) :: pack_pairs r
  | _ => []
  end.
Definition HP (x : list nat) (t : bool) : list N :=
  let f := if t then 2 else 0 in
  match Nat.even (length x), x with
  | true, _ => N.of_nat (16 * f) :: pack_pairs x
  | false, a :: r => N.of_nat (16 * (f + 1) + a) :: pack_pairs r
  | false, [] => []
  end.

(** Longest common prefix of all keys. *)
Fixpoint lcp (a b : list nat) : list nat :=
  match a, b with
  | x :: a', y :: b' => if x =? y then x :: lcp a' b' else []
  | _, _ => []
  end.
Fixpoint lcps (J : pairs) : list nat :=
  match J with
  | [] => []
  | [(k, _)] => k
  | (k, _) :: r => lcp k (lcps r)
  end.

(** Pairs whose key starts with nibble [i], without that nibble. *)
Definition select (i : nat) (J : pairs) : pairs :=
  flat_map (fun e => match fst e with x :: k => if x =? i then [(k, snd e)] else [] | [] => [] end) J.
Definition drop (n : nat) (J : pairs) : pairs := map (fun e => (skipn n (fst e), snd e)) J.
Definition value_here (J : pairs) : list N :=
  match find (fun e => match fst e with [] => true | _ => false end) J with
  | Some (_, v) => v
  | None => []
  end.

Section Keccak.
Variable KEC : list N -> list N.

(** Appendix D.  [yp_c] is the composition function c, [yp_n] the RLP of what n
    contributes to its parent (the node itself if it is short). *)
Fixpoint yp_c (fuel : nat) (J : pairs) : list N :=
  match fuel with
  | 0 => []
  | S f =>
      let yp_n J := match J with
                    | [] => R_b []
                    | _ => let c := yp_c f J in if length c <? 32 then c else R_b (KEC c)
                    end in
      match J with
      | [(k, v)] => R_l (R_b (HP k true) ++ R_b v)
      | _ =>
          match lcps J with
          | [] => R_l (flat_map (fun i => yp_n (select i J)) (seq 0 16) ++ R_b (value_here J))
          | p => R_l (R_b (HP p false) ++ yp_n (drop (length p) J))
          end
      end
  end.

Definition yp_trie (fuel : nat) (J : pairs) : list N :=
  match J with
  | [] => KEC (R_b [])
  | _ => KEC (yp_c fuel J)
  end.

End Keccak.
