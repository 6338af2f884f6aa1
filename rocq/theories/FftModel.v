(** Short-time Fourier transforms on the CPU.
    Sources: /repo/mllm/backends/cpu/ops/STFTOp.cpp (also the inverse), core/aops/STFTOp.cpp, core/aops/ISTFTOp.cpp.

    Simplifications: real numbers instead of float; complex numbers are pairs; std::log2 of an int is the integer logarithm
    (exact for powers of two); "for (stride = 2; stride <= n; stride <<= 1)" is a loop over the exponents 1 .. log2 n and
    "for (j = 0; j < n; j += stride)" over the blocks; no overflow of int. *)
From Coq Require Import Reals.
From Verif Require Import Base DTypeModel ParamModel TensorModel OpsModel MatModel.
Local Open Scope Z_scope.

(** std::complex<float>. *)
Definition cx : Type := (R * R)%type.
Definition c0 : cx := (0%R, 0%R).
Definition c1 : cx := (1%R, 0%R).
Definition cadd (a b : cx) : cx := ((fst a + fst b)%R, (snd a + snd b)%R).
Definition csub (a b : cx) : cx := ((fst a - fst b)%R, (snd a - snd b)%R).
Definition cmul (a b : cx) : cx := ((fst a * fst b - snd a * snd b)%R, (fst a * snd b + snd a * fst b)%R).
Definition cdivr (a : cx) (r : R) : cx := ((fst a / r)%R, (snd a / r)%R).
Definition conj (a : cx) : cx := (fst a, (- snd a)%R).
Definition cis (t : R) : cx := (cos t, sin t).
Definition real (x : R) : cx := (x, 0%R).

(** computeAngularVelocity, STFTOp.cpp:24-32. *)
Definition angular_velocity (n : Z) (inverse : bool) : R := ((if inverse then 1 else -1) * (2 * PI) / IZR n)%R.
(** is_power_of_2, STFTOp.cpp:34-41: the number of bits set. *)
Fixpoint pop_count (p : positive) : Z :=
  match p with xH => 1 | xO q => pop_count q | xI q => 1 + pop_count q end.
Definition is_power_of_2 (n : Z) : bool := match n with Zpos p => pop_count p =? 1 | _ => false end.
(** nextPowerOf2, STFTOp.cpp:43-49. *)
Fixpoint next_pow2_loop (fuel : nat) (out inp : Z) : res Z :=
  match fuel with
  | O => RDiverge
  | S fuel => if out <=? inp then next_pow2_loop fuel (2 * out) inp else ROk out
  end.
Definition next_power_of_2 (inp : Z) : res Z := next_pow2_loop (S (Z.to_nat inp)) 1 (inp - 1).

(** BitReverseTable256, STFTOp.cpp:52-66. *)
Definition bit_reverse_table : list Z :=
  [0; 128; 64; 192; 32; 160; 96; 224; 16; 144; 80; 208; 48; 176; 112; 240; 8; 136; 72; 200; 40; 168; 104; 232;
   24; 152; 88; 216; 56; 184; 120; 248; 4; 132; 68; 196; 36; 164; 100; 228; 20; 148; 84; 212; 52; 180; 116; 244;
   12; 140; 76; 204; 44; 172; 108; 236; 28; 156; 92; 220; 60; 188; 124; 252; 2; 130; 66; 194; 34; 162; 98; 226;
   18; 146; 82; 210; 50; 178; 114; 242; 10; 138; 74; 202; 42; 170; 106; 234; 26; 154; 90; 218; 58; 186; 122; 250;
   6; 134; 70; 198; 38; 166; 102; 230; 22; 150; 86; 214; 54; 182; 118; 246; 14; 142; 78; 206; 46; 174; 110; 238;
   30; 158; 94; 222; 62; 190; 126; 254; 1; 129; 65; 193; 33; 161; 97; 225; 17; 145; 81; 209; 49; 177; 113; 241;
   9; 137; 73; 201; 41; 169; 105; 233; 25; 153; 89; 217; 57; 185; 121; 249; 5; 133; 69; 197; 37; 165; 101; 229;
   21; 149; 85; 213; 53; 181; 117; 245; 13; 141; 77; 205; 45; 173; 109; 237; 29; 157; 93; 221; 61; 189; 125; 253;
   3; 131; 67; 195; 35; 163; 99; 227; 19; 147; 83; 211; 51; 179; 115; 243; 11; 139; 75; 203; 43; 171; 107; 235;
   27; 155; 91; 219; 59; 187; 123; 251; 7; 135; 71; 199; 39; 167; 103; 231; 23; 151; 87; 215; 55; 183; 119; 247;
   15; 143; 79; 207; 47; 175; 111; 239; 31; 159; 95; 223; 63; 191; 127; 255].
Definition reversed_byte (x : Z) : Z := nth (Z.to_nat (Z.land x 255)) bit_reverse_table 0.
(** bitReverse, STFTOp.cpp:68-78; an index is not negative and below 2^32. *)
Definition bit_reverse (num bits : Z) : Z :=
  if 32 <? bits then 0
  else
    let rev := Z.lor (Z.lor (Z.lor (Z.shiftl (reversed_byte num) 24) (Z.shiftl (reversed_byte (Z.shiftr num 8)) 16))
                            (Z.shiftl (reversed_byte (Z.shiftr num 16)) 8)) (reversed_byte (Z.shiftr num 24)) in
    Z.shiftr rev (32 - bits).

(** The butterflies of one block, STFTOp.cpp:107-119 and :146-158; w is multiplied by w_m in every round. *)
Definition butterflies (w_m : cx) (j midpoint : Z) (out : buf cx) : res (buf cx) :=
  do st <- zloop midpoint (fun k (st : cx * buf cx) =>
      do even <- loadv (snd st) (j + k);
      do odd <- loadv (snd st) (j + k + midpoint);
      let t := cmul (fst st) odd in
      do b <- store (snd st) (j + k) (Some (cadd even t));
      do b <- store b (j + k + midpoint) (Some (csub even t));
      ROk (cmul (fst st) w_m, b)) (c1, out);
  ROk (snd st).
(** All stages, STFTOp.cpp:98-120 and :137-159. *)
Definition stages (n : Z) (inverse : bool) (out : buf cx) : res (buf cx) :=
  zloop (Z.log2 n) (fun m out =>
    let stride := 2 ^ (m + 1) in
    let midpoint := stride / 2 in
    let angle := (angular_velocity n inverse * IZR (n / stride))%R in
    zloop ((n + stride - 1) / stride) (fun j out => butterflies (cis angle) (j * stride) midpoint out) out) out.
(** "apply scaling", STFTOp.cpp:122-125 and :161-164. *)
Definition scaled (n : Z) (inverse : bool) (out : buf cx) : res (buf cx) :=
  if inverse then zloop n (fun i out => do v <- loadv out i; store out i (Some (cdivr v (IZR n)))) out else ROk out.
(** fftRadix2, STFTOp.cpp:80-126. *)
Definition fft_radix2 (input : buf R) (n : Z) (inverse : bool) (out : buf cx) : res (buf cx) :=
  do out <- zloop n (fun i out =>
      let reversed := bit_reverse i (Z.log2 n) in
      do v <- (if reversed <? b_len input then do x <- loadv input reversed; ROk (real x) else ROk c0);
      store out i (Some v)) out;
  do out <- stages n inverse out;
  scaled n inverse out.
(** fftRadix2Complex, STFTOp.cpp:128-165. *)
Definition fft_radix2_complex (n : Z) (inverse : bool) (data : buf cx) : res (buf cx) :=
  if n =? 0 then ROk data
  else
    do data <- zloop n (fun i data =>
        let reversed := bit_reverse i (Z.log2 n) in
        if (reversed <? b_len data) && (i <? reversed) then
          do x <- loadv data i;
          do y <- loadv data reversed;
          do data <- store data i (Some y);
          store data reversed (Some x)
        else ROk data) data;
    do data <- stages n inverse data;
    scaled n inverse data.
(** fftBluestein and fftBluesteinComplex, STFTOp.cpp:167-222 and :224-280, which differ in the type of the input only:
    [get n] is the n-th input as a complex number, [len] its size. *)
Definition chirp (direction : R) (n N : Z) : cx := cis (direction * PI * IZR n * IZR n / IZR N).
Definition fft_bluestein (get : Z -> res cx) (len N : Z) (inverse : bool) : res (buf cx) :=
  if N =? 0 then ROk (mkBuf 0 (fun _ => None))
  else
    do M <- next_power_of_2 (2 * N - 1);
    let direction := (if inverse then 1 else -1)%R in
    let zeros := mkBuf M (fun _ => Some c0) in
    do a <- zloop N (fun n a => if n <? len then do x <- get n; store a n (Some (cmul x (chirp direction n N))) else ROk a) zeros;
    do b <- zloop N (fun n b => store b n (Some (chirp (- direction) n N))) zeros;
    do b <- zloop (N - 1) (fun i b => let n := i + 1 in do x <- loadv b n; store b (M - n) (Some x)) b;
    do a <- fft_radix2_complex M false a;
    do b <- fft_radix2_complex M false b;
    do a <- zloop M (fun i a => do x <- loadv a i; do y <- loadv b i; store a i (Some (cmul x y))) a;
    do a <- fft_radix2_complex M true a;
    do out <- zloop N (fun n out => do x <- loadv a n; store out n (Some (cmul x (chirp direction n N)))) (mkBuf N (fun _ => Some c0));
    scaled N inverse out.

(** "Compute FFT", STFTOp.cpp:363-368. *)
Definition forward_fft (input : buf R) (n : Z) (out : buf cx) : res (buf cx) :=
  if is_power_of_2 n then fft_radix2 input n false out
  else fft_bluestein (fun i => do x <- loadv input i; ROk (real x)) (b_len input) n false.
(** "IFFT", STFTOp.cpp:439-445 and :506-512. *)
Definition inverse_fft (n : Z) (data : buf cx) : res (buf cx) :=
  if is_power_of_2 n then fft_radix2_complex n true data
  else fft_bluestein (loadv data) (b_len data) n true.

(** The options, core/aops/STFTOp.hpp, ISTFTOp.hpp; onesided is always true (asserted). *)
Inductive pad_mode := PReflect | PConstant | PSame | POther.
Record stft_options := mkStft { o_n : Z; o_hop : Z; o_win : Z; o_center : bool; o_pad : pad_mode }.
(** STFTOp::reshape and ISTFTOp::reshape, the validation of the options (core/aops/STFTOp.cpp:28-48, ISTFTOp.cpp:28-49). *)
Definition validated (o : stft_options) : res stft_options :=
  if negb (0 <? o_n o) then RAbort
  else
    let hop := if o_hop o =? 0 then o_n o / 4 else o_hop o in
    let win := if o_win o =? 0 then o_n o else if o_n o <? o_win o then o_n o else o_win o in
    let pad := if o_center o then match o_pad o with PReflect => PReflect | PConstant => PConstant | _ => PReflect end else o_pad o in
    ROk (mkStft (o_n o) hop win (o_center o) pad).
Definition quotient (a b : Z) : res Z := if b =? 0 then RUB else ROk (Z.quot a b).

(** padSignal, STFTOp.cpp:282-318; the signal is read from the start of the tensor. *)
Definition signal_length {A} (t : tns A) : res Z := if zlen (x_shape t) =? 1 then vget (x_shape t) 0 else vget (x_shape t) 1.
Definition pad_signal (t : tns R) (o : stft_options) : res (buf R) :=
  do len <- signal_length t;
  let src i := loadv (x_buf t) (x_offset t + i) in
  if o_center o then
    let pad := Z.quot (o_n o) 2 in
    let z := mkBuf (len + 2 * pad) (fun _ => Some 0%R) in
    do p <- zloop len (fun i p => do x <- src i; store p (pad + i) (Some x)) z;
    match o_pad o with
    | PReflect =>
        zloop pad (fun i p =>
          do x <- src (pad - i);
          do p <- store p i (Some x);
          do y <- src (len - 2 - i);
          store p (pad + len + i) (Some y)) p
    | _ => zloop pad (fun i p => do p <- store p i (Some 0%R); store p (pad + len + i) (Some 0%R)) p
    end
  else zloop len (fun i p => do x <- src i; store p i (Some x)) (mkBuf len (fun _ => Some 0%R)).
(** One frame: STFTOp.cpp:352-368.  The buffers of the code live across the frames; the first win_length inputs and all
    outputs are overwritten, the other inputs stay 0. *)
Definition frame (o : stft_options) (padded : buf R) (window : tns R) (f : Z) : res (buf cx) :=
  let start := f * o_hop o in
  do input <- zloop (o_win o) (fun i input =>
      do v <- (if start + i <? b_len padded then
                 do x <- loadv padded (start + i);
                 do w <- loadv (x_buf window) (x_offset window + i);
                 ROk (x * w)%R
               else ROk 0%R);
      store input i (Some v)) (mkBuf (o_n o) (fun _ => Some 0%R));
  forward_fft input (o_n o) (mkBuf (o_n o) (fun _ => Some c0)).
(** STFTOp::reshape and CPUSTFTOp::forward with return_complex, core/aops/STFTOp.cpp:27-80, STFTOp.cpp:320-383. *)
Definition stft_op (opts : stft_options) (t window : tns R) : res (tns cx) :=
  do o <- validated opts;
  if negb ((zlen (x_shape t) =? 1) || (zlen (x_shape t) =? 2)) then RAbort
  else if negb (last (x_shape window) 0 =? o_win o) then RAbort
  else
    do len <- signal_length t;
    let batch := if zlen (x_shape t) =? 1 then 1 else nth 0 (x_shape t) 0 in
    let len := if o_center o then len + 2 * Z.quot (o_n o) 2 else len in
    do q <- quotient (len - o_win o) (o_hop o);
    let frames := 1 + q in
    let bins := Z.quot (o_n o) 2 + 1 in
    do out <- fresh_tensor [batch; bins; frames];
    do padded <- pad_signal t o;
    zloop batch (fun b => zloop frames (fun f out =>
      do y <- frame o padded window f;
      zloop bins (fun k out => do v <- loadv y k; at_store out [b; k; f] (Some v)) out)) out.

(** The spectrum of one frame, STFTOp.cpp:419-437 and :486-504. *)
Definition load_spectrum (n bins b f : Z) (t : tns cx) (data : buf cx) : res (buf cx) :=
  do data <- zloop bins (fun k data => do v <- at_load t [b; k; f]; do v <- need v; store data k (Some v)) data;
  zloop (n - bins) (fun i data => let k := bins + i in do v <- loadv data (n - k); store data k (Some (conj v))) data.
(** Overlap-add of one frame: STFTOp.cpp:453-462 and :520-529; [at_] is the place of sample 0 in [out]. *)
Definition overlap_add (start win limit at_ : Z) (y : buf cx) (window : tns R) (st : buf R * buf R) : res (buf R * buf R) :=
  zloop win (fun i (st : buf R * buf R) =>
    let p := start + i in
    if p <? limit then
      do v <- loadv y i;
      do w <- loadv (x_buf window) (x_offset window + i);
      do o <- loadv (fst st) (at_ + p);
      do o <- store (fst st) (at_ + p) (Some (o + fst v * w)%R);
      do e <- loadv (snd st) p;
      do e <- store (snd st) p (Some (e + w * w)%R);
      ROk (o, e)
    else ROk st) st.
(** "normalise by the envelope": STFTOp.cpp:466-468 and :532-534. *)
Definition tiny : R := (/ 10000000000)%R.
Definition envelope_divide (len at_ : Z) (st : buf R * buf R) : res (buf R) :=
  zloop len (fun i o =>
    do e <- loadv (snd st) i;
    if Rlt_dec tiny e then do v <- loadv o (at_ + i); store o (at_ + i) (Some (v / e)%R) else ROk o) (fst st).
(** ISTFTOp::reshape, core/aops/ISTFTOp.cpp:28-76. *)
Definition istft_length (o : stft_options) (frames : Z) : Z :=
  let full := (frames - 1) * o_hop o + o_n o in
  if o_center o then full - 2 * Z.quot (o_n o) 2
  else match o_pad o with PSame => full - 2 * Z.quot (o_win o - o_hop o) 2 | _ => full end.
(** CPUISTFTOp::forward for complex input without normalisation, STFTOp.cpp:385-537. *)
Definition istft_op (opts : stft_options) (t : tns cx) (window : tns R) : res (tns R) :=
  do o <- validated opts;
  if negb ((zlen (x_shape t) =? 3) || (zlen (x_shape t) =? 4)) then RAbort
  else if negb (last (x_shape window) 0 =? o_win o) then RAbort
  else
    let batch := nth 0 (x_shape t) 0 in
    let bins := nth 1 (x_shape t) 0 in
    let frames := nth 2 (x_shape t) 0 in
    let len := istft_length o frames in
    do out <- fresh_tensor [batch; len];
    let data0 := mkBuf (o_n o) (fun _ => Some c0) in
    let spectra b limit at_ (out env : buf R) data :=
      zloop frames (fun f (s : buf cx * (buf R * buf R)) =>
        do data <- load_spectrum (o_n o) bins b f t (fst s);
        do data <- inverse_fft (o_n o) data;
        do st <- overlap_add (f * o_hop o) (o_win o) limit at_ data window (snd s);
        ROk (data, st)) (data, (out, env)) in
    do r <- zloop batch (fun b (s : buf cx * buf R) =>
      do at_ <- offsetted (x_view out) [b; 0];
      match o_pad o, o_center o with
      | PSame, false =>
          let padding := Z.quot (o_win o - o_hop o) 2 in
          let final := frames * o_hop o in
          if 1 <? Z.abs (len - final) then RAbort
          else
            let full := (frames - 1) * o_hop o + o_win o in
            let z := mkBuf full (fun _ => Some 0%R) in
            do st <- spectra b full 0 z z (fst s);
            do tmp <- envelope_divide full 0 (snd st);
            do o <- memcpy tmp padding at_ final (snd s);
            ROk (fst st, o)
      | _, _ =>
          do o <- zloop len (fun i o => store o (at_ + i) (Some 0%R)) (snd s);
          do st <- spectra b len at_ o (mkBuf len (fun _ => Some 0%R)) (fst s);
          do o <- envelope_divide len at_ (snd st);
          ROk (fst st, o)
      end) (data0, x_buf out);
    ROk (mkTns (x_view out) (snd r)).
