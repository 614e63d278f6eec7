(* Model of tests/getcycles.c. Definitions only.
   Outside values enter as arguments: rnd i is the i-th value returned by rand, clk i the true number of cycles that have passed at the i-th reading
   of the cycle counter (a number that never wraps; the counter shows it modulo 2^64, on ARM modulo 2^32). The global arrays are blocks of
   the memory; nsec, which no implementation uses, is not passed. Counters up to 32768 are numbers without wrap. qsort is an argument as well.
   Doubles are rational numbers; every operation rounds its exact result with the argument rne. *)
From Coq Require Import Ascii String DecimalString Decimal QArith.
From Verif Require Import Base Mem Vocab RefIsap Genkat.
Open Scope N_scope.
Open Scope cm_scope.

(* lines 49-54 *)
Definition NUM_RUNS : N := 16.
Definition NUM_BYTES : N := 32768.
Definition MAX_LEN : N := 32768.
Definition mlens : list N := [1; 8; 16; 32; 64; 1536; 32768].

(* m[i] = rand(): int to unsigned char *)
Definition rand_byte (z : Z) : N := Z.to_N (z mod 256).
(* one of the loops of init_input; r0: calls of rand before it *)
Definition fill (rnd : N -> Z) (buf : ptr) (len r0 : N) : M unit := for_ 0 len (fun i _ => store (padd buf i) (rand_byte (rnd (r0 + i)))) tt.

(* init_input, lines 71-79, with CRYPTO_AEAD and with CRYPTO_HASH; run: calls of measure before this one *)
Definition aead_rands : N := MAX_LEN + MAX_LEN + KEYBYTES + NPUBBYTES.
Definition init_aead (rnd : N -> Z) (m a k npub : ptr) (run : N) : M unit :=
  let r0 := run * aead_rands in
  _ <- fill rnd m MAX_LEN r0 ;; _ <- fill rnd a MAX_LEN (r0 + MAX_LEN) ;; _ <- fill rnd k KEYBYTES (r0 + MAX_LEN + MAX_LEN) ;;
  fill rnd npub NPUBBYTES (r0 + MAX_LEN + MAX_LEN + KEYBYTES).
Definition init_hash (rnd : N -> Z) (m : ptr) (run : N) : M unit := fill rnd m MAX_LEN (run * MAX_LEN).

(* The call in the loop, lines 93 and 95; alen is 0. *)
Definition call_aead (X : aead) (c clen m a npub k : ptr) (mlen : N) : M unit := _ <- a_enc X c clen m mlen a 0 npub k ;; ret tt.
Definition call_hash (hash : ptr -> ptr -> N -> M Z) (h m : ptr) (mlen : N) : M unit := _ <- hash h m mlen ;; ret tt.

Section Measure.
  (* W: modulus of the type of before and after, 2^64, on ARM 2^32 (lines 84-88) *)
  Variables (W : N) (clk : N -> N) (init : N -> M unit) (call : N -> M unit).

  (* measure, lines 81-99 *)
  Definition measure (run mlen : N) : M N :=
    let NREPS := NUM_BYTES / mlen in
    _ <- init run ;;
    let before := clk (2 * run) mod W in
    _ <- for_ 0 NREPS (fun _ _ => call mlen) tt ;;
    let after := clk (2 * run + 1) mod W in
    ret ((after + W - before) mod W).

  (* The inner loop of main, line 117: cycles[i], not yet sorted *)
  Definition row (i mlen : N) : M (list N) := for_ 0 NUM_RUNS (fun j l => x <- measure (i * NUM_RUNS + j) mlen ;; ret (l ++ [x])) [].
  (* lines 116-119 without qsort *)
  Fixpoint table (i : N) (ls : list N) : M (list (list N)) :=
    match ls with
    | [] => ret []
    | mlen :: ls => x <- row i mlen ;; y <- table (i + 1) ls ;; ret (x :: y)
    end.
  Definition cycles_table : M (list (list N)) := table 0 mlens.
End Measure.

(* compare_uint64, lines 101-107 *)
Definition compare_uint64 (a b : N) : Z := if b <? a then 1 else if a <? b then -1 else 0.

(* ---- what main prints ---- *)

Section Print.
  Variables (rne : Q -> Q) (factor : Q).
  Definition of_N (n : N) : Q := rne (inject_Z (Z.of_N n)).
  (* factor * cycles / bytes + d, lines 134, 135, 147, 149 *)
  Definition per_byte (cycles bytes : N) (d : Q) : Q := rne (rne (rne (factor * of_N cycles) / of_N bytes) + d).
  (* the doubles 0.05 and 0.5 *)
  Definition d005 : Q := rne (5 # 100).
  Definition d05 : Q := rne (1 # 2).

  (* printf rounds the exact value of a double, ties to even (C library); only values that are not negative occur *)
  Definition round_even (q : Q) : Z :=
    let f := Z.div (Qnum q) (Zpos (Qden q)) in
    match Qcompare (q - inject_Z f) (1 # 2) with Lt => f | Gt => f + 1 | Eq => if Z.even f then f else f + 1 end%Z.
  Fixpoint spaces (k : nat) : string := match k with O => EmptyString | S k => String " " (spaces k) end.
  Definition pad_to (w : nat) (s : string) : string := (spaces (w - String.length s) ++ s)%string.
  (* "%w.0f" and "%w.1f" *)
  Definition fmt_f0 (w : nat) (q : Q) : string := pad_to w (fmt_llu (Z.to_N (round_even q))).
  Definition fmt_f1 (w : nat) (q : Q) : string :=
    let t := Z.to_N (round_even (10 * q)) in pad_to w (fmt_llu (t / 10) ++ "." ++ fmt_llu (t mod 10)).

  (* NREPS and bytes, lines 123, 131-132, 144-145 *)
  Definition nreps (mlen : N) : N := NUM_BYTES / mlen.
  Definition nbytes (mlen : N) : N := mlen * nreps mlen.

  (* the sorted tables: cycles[i] for mlens[i] *)
  (* lines 121-127; (int)(x / NREPS): two's complement *)
  Definition to_int (n : N) : Z := let z := Z.of_N (n mod 2 ^ 32) in if (z <? 2 ^ 31)%Z then z else (z - 2 ^ 32)%Z.
  Definition line_sorted (mlen : N) (l : list N) : string :=
    (pad_to 5 (fmt_d (to_int mlen)) ++ ": " ++ String.concat "" (map (fun x => fmt_d (to_int (x / nreps mlen)) ++ " ")%string l))%string.
  (* lines 129-136 *)
  Definition line_min_median (mlen : N) (l : list N) : string :=
    (pad_to 5 (fmt_d (to_int mlen)) ++ ": " ++ fmt_f1 6 (per_byte (nth 0 l 0) (nbytes mlen) d005) ++ " " ++
     fmt_f1 6 (per_byte (nth (N.to_nat (NUM_RUNS / 2)) l 0) (nbytes mlen) d005))%string.
  (* lines 139-142 *)
  Definition line_lens : string := (String.concat "" (map (fun mlen => "| " ++ pad_to 5 (fmt_d (to_int mlen)) ++ " ")%string mlens) ++ "|")%string.
  Definition line_rule : string := (String.concat "" (map (fun _ => "|------:"%string) mlens) ++ "|")%string.
  (* lines 143-151 *)
  Definition cell (mlen : N) (l : list N) : string :=
    if mlen <=? 32 then fmt_f0 5 (per_byte (nth 0 l 0) (nbytes mlen) d05) else fmt_f1 5 (per_byte (nth 0 l 0) (nbytes mlen) d005).
  Definition line_values (t : list (list N)) : string :=
    (String.concat "" (map (fun x => "| " ++ cell (fst x) (snd x) ++ " ")%string (combine mlens t)) ++ "|")%string.

  (* lines 121-151: the lines printed, for the sorted tables *)
  Definition printed (t : list (list N)) : list string :=
    ([EmptyString; "sorted cycles:"%string] ++ map (fun x => line_sorted (fst x) (snd x)) (combine mlens t) ++
     [EmptyString; "cycles per byte (min,median):"%string] ++ map (fun x => line_min_median (fst x) (snd x)) (combine mlens t) ++
     [EmptyString; line_lens; line_rule; line_values t])%list.
End Print.

(* main, lines 109-154: the lines printed. qs: qsort with compare_uint64, run on the first NUM_RUNS elements of cycles[i]. *)
Definition main (rne : Q -> Q) (factor : Q) (qs : list N -> list N) (W : N) (clk : N -> N) (init call : N -> M unit) : M (list string) :=
  t <- cycles_table W clk init call ;; ret (printed rne factor (map qs t)).
