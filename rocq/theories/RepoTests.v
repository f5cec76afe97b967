(** The tests that come with the library (/repo/tests), run on the model.  These are no proofs
    of properties: they check that the model does what the authors' tests say the code does. *)
From Coq Require Import ZArith List Bool String Ascii.
From Verif Require Import Base Base58_Model Cache_Model SStore_Model Txml_Model.
Import ListNotations.
Local Open Scope Z_scope.

(** tests/base58/test.c:6-15 and 37-70: hexadecimal text to bytes *)
Definition nibble (c : Z) : Z := if c <=? 57 then c - 48 else c - 87.
Fixpoint unhex (l : list Z) : list Z :=
  match l with a :: b :: l => 16 * nibble a + nibble b :: unhex l | _ => [] end.

(** the text up to the terminator *)
Fixpoint upto0 (l : list Z) : list Z :=
  match l with [] => [] | c :: l => if c =? 0 then [] else c :: upto0 l end.

(** tests/base58/data/test_in.txt and test_control.txt *)
Definition vectors : list (string * string) :=
  [("61", "2g");
   ("626262", "a3gV");
   ("636363", "aPEr");
   ("73696d706c792061206c6f6e6720737472696e67", "2cFupjhnEsSn59qHXstmK2ffpLv2");
   ("00eb15231dfceb60925886b67d065299925915aeb172c06647", "1NS17iag9jJgTHD1VXjvLCEnZuQ3rJDE9L");
   ("516b6fcd0f", "ABnLTmg");
   ("bf4f89001e670274dd", "3SEo3LWLoPntC");
   ("572e4794", "3EFU7m");
   ("ecac89cad93923c02321", "EJDM8drfXA6uyA");
   ("10c8511e", "Rt5zm");
   ("00000000000000000000", "1111111111");
   ("000111d38e5fc9071ffcd20b4a763cc9ae4f252bb4e48fd66a835e252ada93ff480d6dd43dc62a641155a5", "123456789ABCDEFGHJKLMNPQRSTUVWXYZabcdefghijkmnopqrstuvwxyz");
   ("000102030405060708090a0b0c0d0e0f101112131415161718191a1b1c1d1e1f202122232425262728292a2b2c2d2e2f303132333435363738393a3b3c3d3e3f404142434445464748494a4b4c4d4e4f505152535455565758595a5b5c5d5e5f606162636465666768696a6b6c6d6e6f707172737475767778797a7b7c7d7e7f808182838485868788898a8b8c8d8e8f909192939495969798999a9b9c9d9e9fa0a1a2a3a4a5a6a7a8a9aaabacadaeafb0b1b2b3b4b5b6b7b8b9babbbcbdbebfc0c1c2c3c4c5c6c7c8c9cacbcccdcecfd0d1d2d3d4d5d6d7d8d9dadbdcdddedfe0e1e2e3e4e5e6e7e8e9eaebecedeeeff0f1f2f3f4f5f6f7f8f9fafbfcfdfeff", "1cWB5HCBdLjAuqGGReWE3R3CguuwSjw6RHn39s2yuDRTS5NsBgNiFpWgAnEx6VQi8csexkgYw3mdYrMHr8x9i7aEwP8kZ7vccXWqKDvGv3u1GxFKPuAkn8JCPPGDMf3vMMnbzm6Nh9zh1gcNsMvH3ZNLmP5fSG6DGbbi2tuwMWPthr4boWwCxf7ewSgNQeacyozhKDDQQ1qL5fQFUW52QKUZDZ5fw3KXNQJMcNTcaB723LchjeKun7MuGW5qyCBZYzA1KjofN1gYBV3NqyhQJ3Ns746GNuf9N2pQPmHz4xpnSrrfCvy6TVVz5d4PdrjeshsWQwpZsZGzvbdAdN8MKV5QsBDY")]%string.

Definition same (a b : list Z) : bool := if list_eq_dec Z.eq_dec a b then true else false.
(** tests/base58/test.c:117-160: encode and compare, decode and compare *)
Definition base58_vector (v : string * string) : bool :=
  let data := unhex (zs (fst v)) in
  let fresh n := Some (repeat 170 n) in
  match encode_alloc true fresh data (List.length data) with
  | Ok (_, Some blk) =>
      let text := upto0 blk in
      same text (zs (snd v)) &&
      match decode_alloc true fresh text (List.length text) with
      | Ok (r, Some out) => (0 <=? r) && same (firstn (Z.to_nat r) out) data
      | _ => false
      end
  | _ => false
  end.
Example tests_base58 : forallb base58_vector vectors = true.
Proof. vm_compute. reflexivity. Qed.

(** tests/cache/test.cpp:19-58: what get gives at once, after one second, after four
    seconds.  An element that is exactly time_max seconds old has not expired (cache.tcc:10). *)
Definition cache_test (tmax : Z) (v : Z) : res (list (option Z)) :=
  c <- set Z Z Z.eqb (create Z Z 1024 tmax) 0 v 8 false 1000 ;;
  '(a, c) <- get Z Z Z.eqb c 0 1000 ;;
  '(b, c) <- get Z Z Z.eqb c 0 1001 ;;
  '(d, c) <- get Z Z Z.eqb c 0 1004 ;;
  Ok [a; b; d].
Example tests_cache : cache_test 0 23 = Ok [Some 23; Some 23; Some 23] /\ cache_test 1 35 = Ok [Some 35; Some 35; None].
Proof. split; vm_compute; reflexivity. Qed.

(** tests/stringstorage/test.c:10-25: three keys, their numbers, and the enumeration *)
Definition word32 (x : Z) : list Z := [x mod 256; x / 256 mod 256; x / 65536 mod 256; x / 16777216].
Fixpoint adds (ss : storage) (l : list (string * Z)) : res storage :=
  match l with
  | [] => Ok ss
  | (k, v) :: l =>
      '(ss, p) <- add ss (zs k) ;;
      match p with
      | None => Ub NullDeref
      | Some p => ss <- user_write ss p (word32 v) ;; adds ss l
      end
  end.
Fixpoint rd4 (ss : storage) (l : list (list Z * ptr)) : res (list (list Z * Z)) :=
  match l with
  | [] => Ok []
  | (k, p) :: l =>
      a <- rdp (fst ss) p ;; b <- rdp (fst ss) (padd p 1) ;; c <- rdp (fst ss) (padd p 2) ;; d <- rdp (fst ss) (padd p 3) ;;
      r <- rd4 ss l ;; Ok ((upto0 k, a + 256 * b + 65536 * c + 16777216 * d) :: r)
  end.
Definition storage_test : res (list (list Z * Z)) :=
  ss <- adds (init 4) [("AAA", 5); ("AAAaaaaaaa", 25); ("AAAaaaaabbbb", 26)]%string ;;
  e <- enumerate ss ;; rd4 ss e.
Example tests_stringstorage : storage_test =
  Ok [(zs "AAA", 5); (zs "AAAaaaaaaa", 25); (zs "AAAaaaaabbbb", 26)].
Proof. vm_compute. reflexivity. Qed.

(** tests/txml/test_txml.cpp:4-29: the events of <r><s>s1</s><s>s2</s></r> fill the list *)
Definition config : ty := TObj [(zs "r", TObj [(zs "s", TList (TScal KStr) (VScal (SStr [])))])].
Definition no_config : val := VObj [VObj [VList []]].
Example tests_txml : match load_events config no_config
    [Beg (zs "r") []; Beg (zs "s") []; Chars (zs "s1"); End; Beg (zs "s") []; Chars (zs "s2"); End; End] with
  | Ok s => root s = VObj [VObj [VList [VScal (SStr (zs "s1")); VScal (SStr (zs "s2"))]]]
  | _ => False
  end.
Proof. vm_compute. reflexivity. Qed.
