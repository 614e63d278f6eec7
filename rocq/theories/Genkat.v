(* Models of the programs in /repo/tests that drive the API: genkat_aead.c, genkat_hash.c, demo.c, bulk.c. Definitions only.
   crypto_aead/isapxv20/ref/genkat_aead.c is a copy of tests/genkat_aead.c (white space differs). For getcycles.c see Getcycles.v, for the
   shell scripts Script.v.
   Local arrays are blocks, as everywhere. What is written to a stream is collected in a string. Simplifications: fopen either gives a stream or
   NULL (parameter opened); writes to the stream and fclose succeed; fileName (256 characters, of which the name with its terminator needs 25) is
   a value, not a block; nsec, which no implementation uses, is not passed. Int and unsigned long long counters stay below 2000 and are
   numbers without wrap. break sets a flag that the loop condition tests. *)
From Coq Require Import Ascii String DecimalString Decimal.
From Verif Require Import Base Mem Vocab RefIsap.
Open Scope N_scope.
Open Scope cm_scope.

(* ---- formatted output (C library) ---- *)
Definition nl : string := String (ascii_of_N 10) EmptyString.
Definition hexdigit (d : N) : string := String (ascii_of_N (if d <? 10 then 48 + d else 55 + d)) EmptyString.
(* "%02X" of an unsigned char *)
Definition fmt_02X (v : N) : string := (hexdigit (v / 16) ++ hexdigit (v mod 16))%string.
(* "%d" and "%llu" *)
Definition fmt_d (z : Z) : string := NilZero.string_of_int (Z.to_int z).
Definition fmt_llu (n : N) : string := NilZero.string_of_uint (N.to_uint n).

(* genkat_aead.c 43-46, genkat_hash.c 43-46, demo.c 45-48 *)
Definition KAT_SUCCESS : Z := 0.
Definition KAT_FILE_OPEN_ERROR : Z := -1.
Definition KAT_CRYPTO_FAILURE : Z := -4.

(* init_buffer: genkat_aead.c 155-159, genkat_hash.c 117-120, demo.c 142-146, bulk.c 12-16 *)
Definition init_buffer (buffer : ptr) (numbytes : N) : M unit :=
  for_ 0 numbytes (fun i _ => store (padd buffer i) (u8 i)) tt.

(* fprint_bstr: genkat_aead.c 145-153, genkat_hash.c 108-115; print_bstr: demo.c 132-140. out: what the stream has received. *)
Definition fprint_bstr (out label : string) (data : ptr) (length : N) : M string :=
  out <- for_ 0 length (fun i out => v <- load (padd data i) ;; ret (out ++ fmt_02X v)%string) (out ++ label)%string ;;
  ret (out ++ nl)%string.

(* memcmp(p, q, n) != 0 (C library) *)
Definition memcmp_ne (p q : ptr) (n : N) : M bool :=
  _ <- emit (ERd p n) ;; _ <- emit (ERd q n) ;;
  a <- loads_ (N.to_nat n) p ;; b <- loads_ (N.to_nat n) q ;;
  ret (if list_eq_dec N.eq_dec a b then false else true).

(* CRYPTO_KEYBYTES, CRYPTO_NPUBBYTES, CRYPTO_ABYTES: the same in all 48 files api.h *)
Definition KEYBYTES : N := 16.
Definition NPUBBYTES : N := 16.
Definition ABYTES : N := 16.

(* The local variables of generate_test_vectors: ret_val, count, what has been written to the stream. *)
Record loc := Loc { g_ret : Z; g_count : Z; g_out : string }.

Section Kat.
  Variables (X : aead) (cf : cfg).

  (* The body of the inner loop, genkat_aead.c 99-135, and demo.c 90-126 (with return instead of break). The first component: leave the loop. *)
  Definition kat_case (key nonce msg msg2 ad ct clen mlen2 : ptr) (mlen adlen : N) (g : loc) : M (bool * loc) :=
    let out := (g_out g ++ "Count = " ++ fmt_d (g_count g) ++ nl)%string in
    let count := (g_count g + 1)%Z in
    out <- fprint_bstr out "Key = " key KEYBYTES ;;
    out <- fprint_bstr out "Nonce = " nonce NPUBBYTES ;;
    out <- fprint_bstr out "PT = " msg mlen ;;
    out <- fprint_bstr out "AD = " ad adlen ;;
    func_ret <- a_enc X ct clen msg mlen ad adlen nonce key ;;
    if_ (negb (func_ret =? 0)%Z)
      (ret (true, Loc KAT_CRYPTO_FAILURE count (out ++ "crypto_aead_encrypt returned <" ++ fmt_d func_ret ++ ">" ++ nl)%string))
      (n <- load_ull cf clen ;;
       out <- fprint_bstr out "CT = " ct n ;;
       let out := (out ++ nl)%string in
       n <- load_ull cf clen ;;
       func_ret <- a_dec X msg2 mlen2 ct n ad adlen nonce key ;;
       if_ (negb (func_ret =? 0)%Z)
         (ret (true, Loc KAT_CRYPTO_FAILURE count (out ++ "crypto_aead_decrypt returned <" ++ fmt_d func_ret ++ ">" ++ nl)%string))
         (n2 <- load_ull cf mlen2 ;;
          if_ (negb (mlen =? n2))
            (ret (true, Loc KAT_CRYPTO_FAILURE count
               (out ++ "crypto_aead_decrypt returned bad 'mlen': Got <" ++ fmt_llu n2 ++ ">, expected <" ++ fmt_llu mlen ++ ">" ++ nl)%string))
            (d <- memcmp_ne msg msg2 mlen ;;
             if_ d
               (ret (true, Loc KAT_CRYPTO_FAILURE count (out ++ "crypto_aead_decrypt did not recover the plaintext" ++ nl)%string))
               (ret (false, Loc (g_ret g) count out))))).

  Definition MAX_MESSAGE_LENGTH : N := 32.              (* genkat_aead.c 49; MESSAGE_LENGTH, demo.c 50 *)
  Definition MAX_ASSOCIATED_DATA_LENGTH : N := 32.      (* genkat_aead.c 50; ASSOCIATED_DATA_LENGTH, demo.c 51 *)

  (* The inner loop, genkat_aead.c 97-136 *)
  Definition kat_row (key nonce msg msg2 ad ct clen mlen2 : ptr) (mlen : N) (g : loc) : M loc :=
    r <- while_ 40 (fun x => let '(adlen, brk, _) := x in negb brk && (adlen <=? MAX_ASSOCIATED_DATA_LENGTH))
      (fun x => let '(adlen, _, g) := x in
        y <- kat_case key nonce msg msg2 ad ct clen mlen2 mlen adlen g ;;
        ret (adlen + 1, fst y, snd y)) (0, false, g) ;;
    ret (snd r).

  (* The outer loop, genkat_aead.c 95-137 *)
  Definition kat_table (key nonce msg msg2 ad ct clen mlen2 : ptr) (g : loc) : M loc :=
    r <- while_ 40 (fun x : N * loc => (fst x <=? MAX_MESSAGE_LENGTH) && (g_ret (snd x) =? KAT_SUCCESS)%Z)
      (fun x => g <- kat_row key nonce msg msg2 ad ct clen mlen2 (fst x) (snd x) ;; ret (fst x + 1, g)) (0, g) ;;
    ret (snd r).

  (* The arrays declared at genkat_aead.c 73-79 and demo.c 72-78. *)
  Definition with_bufs {A} (f : forall key nonce msg msg2 ad ct clen mlen2 : ptr, M A) : M A :=
    with_block 16 (fun key => with_block 16 (fun nonce => with_block 32 (fun msg => with_block 32 (fun msg2 =>
    with_block 32 (fun ad => with_block 48 (fun ct => with_block 8 (fun clen => with_block 8 (fun mlen2 =>
      f key nonce msg msg2 ad ct clen mlen2)))))))).

  Definition file_name : string := ("LWC_AEAD_KAT_" ++ fmt_d 128 ++ "_" ++ fmt_d 128 ++ ".txt")%string.

  (* generate_test_vectors, genkat_aead.c 69-142. Result: return value, the file written (name, contents), what goes to stderr. *)
  Definition generate_test_vectors (opened : bool) : M (Z * option (string * string) * string) :=
    with_bufs (fun key nonce msg msg2 ad ct clen mlen2 =>
      _ <- init_buffer key 16 ;; _ <- init_buffer nonce 16 ;; _ <- init_buffer msg 32 ;; _ <- init_buffer ad 32 ;;
      if_ (negb opened)
        (ret (KAT_FILE_OPEN_ERROR, None, ("Couldn't open <" ++ file_name ++ "> for write" ++ nl)%string))
        (g <- kat_table key nonce msg msg2 ad ct clen mlen2 (Loc KAT_SUCCESS 1 "") ;;
         ret (g_ret g, Some (file_name, g_out g), ""%string))).

  (* main, genkat_aead.c 58-67 *)
  Definition genkat_main (opened : bool) : M (Z * option (string * string) * string) :=
    x <- generate_test_vectors opened ;;
    let '(r, f, e) := x in
    if_ (negb (r =? KAT_SUCCESS)%Z)
      (ret (r, f, (e ++ "test vector generation failed with code " ++ fmt_d r ++ nl)%string))
      (ret (r, f, e)).

  (* demo.c: generate_test_vectors 70-129 and main 59-68. Result: return value, what goes to stdout. *)
  Definition demo_main : M (Z * string) :=
    g <- with_bufs (fun key nonce msg msg2 ad ct clen mlen2 =>
      _ <- init_buffer key 16 ;; _ <- init_buffer nonce 16 ;; _ <- init_buffer msg 32 ;; _ <- init_buffer ad 32 ;;
      y <- kat_case key nonce msg msg2 ad ct clen mlen2 MAX_MESSAGE_LENGTH MAX_ASSOCIATED_DATA_LENGTH (Loc KAT_SUCCESS 1 "") ;;
      ret (snd y)) ;;
    if_ (negb (g_ret g =? KAT_SUCCESS)%Z)
      (ret (g_ret g, (g_out g ++ "test vector generation failed with code " ++ fmt_d (g_ret g) ++ nl)%string))
      (ret (g_ret g, g_out g)).

  (* bulk.c 18-40; unsigned char ad[0] (a GNU extension) is an empty block. *)
  Definition bulk_main : M Z :=
    with_block 16 (fun key => with_block 16 (fun nonce => with_block 1536 (fun msg => with_block 0 (fun ad => with_block 1552 (fun ct => with_block 8 (fun clen =>
      _ <- init_buffer key 16 ;; _ <- init_buffer nonce 16 ;; _ <- init_buffer msg 1536 ;; _ <- init_buffer ad 0 ;;
      _ <- for_ 0 10000 (fun _ _ => _ <- a_enc X ct clen msg 1536 ad 0 nonce key ;; ret tt) tt ;;
      ret 0%Z)))))).
End Kat.

(* genkat_hash.c, for a function crypto_hash(out, in, inlen). *)
Section HashKat.
  Variable hash : ptr -> ptr -> N -> M Z.

  Definition MAX_HASH_MESSAGE_LENGTH : N := 1024.        (* genkat_hash.c 49 *)
  Definition HASH_BYTES : N := 32.                       (* CRYPTO_BYTES, api.h *)

  (* The body of the loop, genkat_hash.c 86-100. (ret_val is the return value of crypto_hash.) *)
  Definition hash_case (msg digest : ptr) (mlen : N) (g : loc) : M (bool * loc) :=
    let out := (g_out g ++ "Count = " ++ fmt_d (g_count g) ++ nl)%string in
    let count := (g_count g + 1)%Z in
    out <- fprint_bstr out "Msg = " msg mlen ;;
    ret_val <- hash digest msg mlen ;;
    if_ (negb (ret_val =? 0)%Z)
      (ret (true, Loc KAT_CRYPTO_FAILURE count (out ++ "crypto_hash returned <" ++ fmt_d ret_val ++ ">" ++ nl)%string))
      (out <- fprint_bstr out "MD = " digest HASH_BYTES ;;
       ret (false, Loc ret_val count (out ++ nl)%string)).

  Definition hash_file_name : string := ("LWC_HASH_KAT_" ++ fmt_d 256 ++ ".txt")%string.

  (* generate_test_vectors, genkat_hash.c 68-106 *)
  Definition generate_hash_vectors (opened : bool) : M (Z * option (string * string) * string) :=
    with_block 1024 (fun msg => with_block 32 (fun digest =>
      _ <- init_buffer msg 1024 ;;
      if_ (negb opened)
        (ret (KAT_FILE_OPEN_ERROR, None, ("Couldn't open <" ++ hash_file_name ++ "> for write" ++ nl)%string))
        (r <- while_ 1100 (fun x => let '(mlen, brk, _) := x in negb brk && (mlen <=? MAX_HASH_MESSAGE_LENGTH))
           (fun x => let '(mlen, _, g) := x in y <- hash_case msg digest mlen g ;; ret (mlen + 1, fst y, snd y))
           (0, false, Loc KAT_SUCCESS 1 "") ;;
         ret (g_ret (snd r), Some (hash_file_name, g_out (snd r)), ""%string)))).

  (* main, genkat_hash.c 58-66 *)
  Definition genkat_hash_main (opened : bool) : M (Z * option (string * string) * string) :=
    x <- generate_hash_vectors opened ;;
    let '(r, f, e) := x in
    if_ (negb (r =? KAT_SUCCESS)%Z)
      (ret (r, f, (e ++ "test vector generation failed with code " ++ fmt_d r ++ nl)%string))
      (ret (r, f, e)).
End HashKat.
