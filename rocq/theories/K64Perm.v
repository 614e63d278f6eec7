(* Model of the Keccak-p[400] macros of isapk128av20/opt_64 and isapk128v20/opt_64 (KeccakP-400-64.macros and
   KeccakP-400-unrolling.macros, the same in both directories). No proofs.
   Variables, all UINT16: the lanes S.X.Aba .. S.X.Asu are numbers 0-24 in the order ba be bi bo bu ga ... su, Eba .. Esu are 25-49,
   Bba .. Bsu 50-74, Ca Ce Ci Co Cu 75-79, Da De Di Do Du 80-84; 85 is the element KeccakF400RoundConstants[i] of the table. *)
From Verif Require Import Base Prog SpecPerm.
Open Scope N_scope.
Open Scope prog_scope.

(* KeccakP-400-64.macros 5-26: the same table as in the reference (RefPerm.KeccakRoundConstants), restated. *)
Definition KeccakF400RoundConstants : list N :=
  [0x0001; 0x8082; 0x808a; 0x8000; 0x808b; 0x0001; 0x8081; 0x8009; 0x008a; 0x0088;
   0x8009; 0x000a; 0x808b; 0x008b; 0x8089; 0x8003; 0x8002; 0x0080; 0x800a; 0x000a].

Definition SA : nat := 0. Definition SE : nat := 25.       (* the two copies of the state *)
Definition vB (i : nat) : nat := 50 + i.
Definition Ca : nat := 75. Definition Ce : nat := 76. Definition Ci : nat := 77. Definition Co : nat := 78. Definition Cu : nat := 79.
Definition Da : nat := 80. Definition De : nat := 81. Definition Di : nat := 82. Definition Do : nat := 83. Definition Du : nat := 84.
Definition vRC : nat := 85.
Definition ba : nat := 0. Definition be : nat := 1. Definition bi : nat := 2. Definition bo : nat := 3. Definition bu : nat := 4.
Definition ga : nat := 5. Definition ge : nat := 6. Definition gi : nat := 7. Definition go : nat := 8. Definition gu : nat := 9.
Definition ka : nat := 10. Definition ke : nat := 11. Definition ki : nat := 12. Definition ko : nat := 13. Definition ku : nat := 14.
Definition ma : nat := 15. Definition me : nat := 16. Definition mi : nat := 17. Definition mo : nat := 18. Definition mu : nat := 19.
Definition sa : nat := 20. Definition se : nat := 21. Definition si : nat := 22. Definition so : nat := 23. Definition su : nat := 24.
Definition ls (i n : nat) : nat := i + n.

(* KeccakP-400-64.macros 28 (the conversion of the operand to UINT16 changes nothing); int arithmetic, truncated by the assignment. *)
Definition ROL (a : exp) (offset : N) : exp := Shl 32 a offset .^ Shr a (16 - offset).

(* prepareThetaX, 45-50, for the copy X of the state *)
Definition prepareTheta (X : nat) : prog :=
  [ Ca ::= ls X ba .^ ls X ga .^ ls X ka .^ ls X ma .^ ls X sa;
    Ce ::= ls X be .^ ls X ge .^ ls X ke .^ ls X me .^ ls X se;
    Ci ::= ls X bi .^ ls X gi .^ ls X ki .^ ls X mi .^ ls X si;
    Co ::= ls X bo .^ ls X go .^ ls X ko .^ ls X mo .^ ls X so;
    Cu ::= ls X bu .^ ls X gu .^ ls X ku .^ ls X mu .^ ls X su ].

(* 55-59 = 171-175 *)
Definition theta_D : prog :=
  [ Da ::= Trunc 16 (Cu .^ ROL Ce 1);
    De ::= Trunc 16 (Ca .^ ROL Ci 1);
    Di ::= Trunc 16 (Ce .^ ROL Co 1);
    Do ::= Trunc 16 (Ci .^ ROL Cu 1);
    Du ::= Trunc 16 (Co .^ ROL Ca 1) ].

(* A##l ^= D; B = ROL16(A##l, r) *)
Definition rho_pi (A l D b : nat) (r : N) : prog :=
  [ ls A l ^= V D; vB b ::= if r =? 0 then V (ls A l) else Trunc 16 (ROL (ls A l) r) ].
(* E##x = Bx ^((~By)& Bz) *)
Definition chi (E x y z : nat) : stmt := ls E x ::= Trunc 16 (vB x .^ (Not 32 (vB y) .& vB z)).

(* thetaRhoPiChiIotaPrepareTheta(i, A, E), 54-166, and thetaRhoPiChiIota(i, A, E), 170-257: the second is the first without the
   assignments to C (pt = false). The round constant is in vRC. *)
Definition Cset (pt : bool) (c : nat) (e : exp) : prog := if pt then [c ::= e] else [].
Definition Cxor (pt : bool) (c : nat) (e : exp) : prog := if pt then [c ^= e] else [].
Definition round_macro (pt : bool) (A E : nat) : prog :=
  theta_D ++
  rho_pi A ba Da ba 0 ++ rho_pi A ge De be 12 ++ rho_pi A ki Di bi 11 ++ rho_pi A mo Do bo 5 ++ rho_pi A su Du bu 14 ++
  [chi E ba be bi] ++ [ls E ba ^= V vRC] ++ Cset pt Ca (ls E ba) ++
  [chi E be bi bo] ++ Cset pt Ce (ls E be) ++
  [chi E bi bo bu] ++ Cset pt Ci (ls E bi) ++
  [chi E bo bu ba] ++ Cset pt Co (ls E bo) ++
  [chi E bu ba be] ++ Cset pt Cu (ls E bu) ++
  rho_pi A bo Do ga 12 ++ rho_pi A gu Du ge 4 ++ rho_pi A ka Da gi 3 ++ rho_pi A me De go 13 ++ rho_pi A si Di gu 13 ++
  [chi E ga ge gi] ++ Cxor pt Ca (ls E ga) ++
  [chi E ge gi go] ++ Cxor pt Ce (ls E ge) ++
  [chi E gi go gu] ++ Cxor pt Ci (ls E gi) ++
  [chi E go gu ga] ++ Cxor pt Co (ls E go) ++
  [chi E gu ga ge] ++ Cxor pt Cu (ls E gu) ++
  rho_pi A be De ka 1 ++ rho_pi A gi Di ke 6 ++ rho_pi A ko Do ki 9 ++ rho_pi A mu Du ko 8 ++ rho_pi A sa Da ku 2 ++
  [chi E ka ke ki] ++ Cxor pt Ca (ls E ka) ++
  [chi E ke ki ko] ++ Cxor pt Ce (ls E ke) ++
  [chi E ki ko ku] ++ Cxor pt Ci (ls E ki) ++
  [chi E ko ku ka] ++ Cxor pt Co (ls E ko) ++
  [chi E ku ka ke] ++ Cxor pt Cu (ls E ku) ++
  rho_pi A bu Du ma 11 ++ rho_pi A ga Da me 4 ++ rho_pi A ke De mi 10 ++ rho_pi A mi Di mo 15 ++ rho_pi A so Do mu 8 ++
  [chi E ma me mi] ++ Cxor pt Ca (ls E ma) ++
  [chi E me mi mo] ++ Cxor pt Ce (ls E me) ++
  [chi E mi mo mu] ++ Cxor pt Ci (ls E mi) ++
  [chi E mo mu ma] ++ Cxor pt Co (ls E mo) ++
  [chi E mu ma me] ++ Cxor pt Cu (ls E mu) ++
  rho_pi A bi Di sa 14 ++ rho_pi A go Do se 7 ++ rho_pi A ku Du si 7 ++ rho_pi A ma Da so 9 ++ rho_pi A se De su 2 ++
  [chi E sa se si] ++ Cxor pt Ca (ls E sa) ++
  [chi E se si so] ++ Cxor pt Ce (ls E se) ++
  [chi E si so su] ++ Cxor pt Ci (ls E si) ++
  [chi E so su sa] ++ Cxor pt Co (ls E so) ++
  [chi E su sa se] ++ Cxor pt Cu (ls E su).
(* Round number i: the table element, then the macro. *)
Definition round_i (pt : bool) (i : nat) (A E : nat) : prog :=
  (vRC ::= K (nth i KeccakF400RoundConstants 0)) :: round_macro pt A E.
(* copyStateVariables(X, Y), 259-285 *)
Definition copyState (X Y : nat) : prog := map (fun l => ls X l ::= V (ls Y l)) (seq 0 25).

(* KeccakP-400-unrolling.macros: rounds20X, rounds16X, rounds12X and rounds8X start with round 0, 4, 8 and 12; rounds with an even
   number go from S to E, the others from E to S, and the last one is number 19. *)
Definition rounds_from (i0 : nat) : prog :=
  prepareTheta SA ++
  flat_map (fun i => if Nat.even i then round_i true i SA SE else round_i true i SE SA) (seq i0 (19 - i0)) ++
  round_i false 19 SE SA.
Definition rounds20X : prog := rounds_from 0.
Definition rounds16X : prog := rounds_from 4.
Definition rounds12X : prog := rounds_from 8.
Definition rounds8X : prog := rounds_from 12.
Definition rounds1X : prog := prepareTheta SA ++ round_i true 19 SA SE ++ copyState SA SE.
(* PermuteRounds*X with the given number of rounds, isap.c 51-54 *)
Definition k64_rounds (r : N) : prog :=
  if r =? 20 then rounds20X else if r =? 16 then rounds16X else if r =? 12 then rounds12X else if r =? 8 then rounds8X else
  if r =? 1 then rounds1X else [].
(* On the 50 bytes of union State; scr: whatever the other 61 variables contain. *)
Definition k64_perm (scr : list N) (r : N) (S : list N) : list N :=
  concat (map (word_le 2) (firstn 25 (run (k64_rounds r) (map le_word (chunks 2 S) ++ scr)))).
