(** * Model of src/collections/bitstream.rs *)
From Coq Require Import ZArith List Bool.
From Verif Require Import Model.Base.
Import ListNotations.
Open Scope Z_scope.

(** bitstream.rs:6-11.  [CAPPED_BITS], [CAPPED_SHIFT_FACTOR], [CHUNK_SIZE_IN_BITS],
    [NUM_OF_BITS_IN_BYTES]. *)
Definition CAPPED_BITS : Z := 14.
Definition CAPPED_SHIFT_FACTOR : Z := 128 - CAPPED_BITS.
Definition CHUNK_SIZE_IN_BITS : Z := 128.

(** bitstream.rs:47-50.  [CAPPED_MAX], [CAPPED_MIN]. *)
Definition CAPPED_MAX : Z := 2 ^ (CAPPED_BITS - 1) - 1.
Definition CAPPED_MIN : Z := - (CAPPED_MAX + 1).

(** bitstream.rs:53-57.  [binary : Vec<u128>], [bit_cursor : u128], [capacity : u128]. *)
Record bitstream := mkBS { bs_binary : list Z; bs_cursor : Z; bs_capacity : Z }.

(** bitstream.rs:59-66.  [BitStream::new] ([with_capacity_in_megabytes], 69-76, only
    differs by a reservation, which is not observable here). *)
Definition bs_new : bitstream := mkBS [] 0 0.

(** bitstream.rs:83-108.  [len], [capacity], [capacity_upperbound], [blocks_allocated]. *)
Definition bs_len (s : bitstream) : Z := uwrap 64 (bs_cursor s).
Definition bs_capacity_bits (s : bitstream) : Z := uwrap 64 (bs_capacity s).
Definition bs_capacity_upperbound (s : bitstream) : Z := zlen (bs_binary s) * 128.
Definition bs_blocks_allocated (s : bitstream) : Z := zlen (bs_binary s).

(** bitstream.rs:356-361.  [chunk_index], [chunk_bit_index]. *)
Definition chunk_index (s : bitstream) : Z := uwrap 64 (bs_cursor s / 128).
Definition chunk_bit_index (s : bitstream) : Z := bs_cursor s mod 128.

(** bitstream.rs:362-365.  [offset_bit_cursor]: u128 cursor through i128 arithmetic. *)
Definition offset_bit_cursor (p : profile) (s : bitstream) (offset : Z) : outcome bitstream :=
  c <- schk p 128 (swrap 128 (bs_cursor s) + offset) ;;
  let c := uwrap 128 c in
  Ok (mkBS (bs_binary s) c (Z.max c (bs_capacity s))).

(** bitstream.rs:367-369, 371-373, 245-247, 241-243. *)
Definition set_bit_cursor (s : bitstream) (i : Z) : bitstream :=
  mkBS (bs_binary s) i (bs_capacity s).
Definition bit_cursor (s : bitstream) : Z := bs_cursor s.
Definition bs_seek_start (s : bitstream) : bitstream := set_bit_cursor s 0.
Definition bs_zero (s : bitstream) : bitstream :=
  mkBS (map (fun _ => 0) (bs_binary s)) (bs_cursor s) (bs_capacity s).

(** bitstream.rs:235-239.  [allocate_if_needed] pushes at most one chunk. *)
Definition allocate_if_needed (s : bitstream) (chunk_idx : Z) : bitstream :=
  if zlen (bs_binary s) <=? chunk_idx
  then mkBS (bs_binary s ++ [0]) (bs_cursor s) (bs_capacity s)
  else s.

Definition set_binary (s : bitstream) (b : list Z) : bitstream :=
  mkBS b (bs_cursor s) (bs_capacity s).

(** bitstream.rs:112-139.  [write_bits]; [val] is the value after [u128::from].
    [1 << chunk_bit_idx] cannot overflow (the amount is below 128), the two
    later shifts can when [num_bits > 128]. *)
Definition write_bits (p : profile) (s : bitstream) (val num_bits : Z) : outcome bitstream :=
  let cur := chunk_index s in
  nxt <- uchk p 64 (cur + 1) ;;
  let bit_idx := chunk_bit_index s in
  let s := allocate_if_needed s cur in
  let s := allocate_if_needed s nxt in
  (* clear everything left of the bit_idx *)
  c0 <- index (bs_binary s) cur ;;
  let c1 := Z.land c0 (Z.shiftl 1 bit_idx - 1) in
  (* write bits here *)
  let c2 := Z.lor c1 (uwrap 128 (Z.shiftl val bit_idx)) in
  b <- store (bs_binary s) cur c2 ;;
  let s := set_binary s b in
  let remaining := CHUNK_SIZE_IN_BITS - bit_idx in
  s <- (if remaining <? num_bits then
          n0 <- index (bs_binary s) nxt ;;
          one <- ushl p 128 1 (num_bits - remaining) ;;
          mask <- uchk p 128 (one - 1) ;;
          let n1 := Z.land n0 mask in
          hi <- shr p 128 val remaining ;;
          b <- store (bs_binary s) nxt (Z.lor n1 hi) ;;
          Ok (set_binary s b)
        else Ok s) ;;
  offset_bit_cursor p s num_bits.

(** bitstream.rs:141-169.  [peek_bits]; [&mut self] because it may allocate. *)
Definition peek_bits (p : profile) (s : bitstream) (num_bits : Z)
  : outcome (bitstream * Z) :=
  let mask := if uwrap 32 num_bits <? 128 then Z.shiftl 1 (uwrap 32 num_bits) - 1
              else 2 ^ 128 - 1 in
  let cur := chunk_index s in
  nxt <- uchk p 64 (cur + 1) ;;
  let bit_idx := chunk_bit_index s in
  let s := allocate_if_needed s cur in
  let s := allocate_if_needed s nxt in
  if zlen (bs_binary s) <=? cur then Ok (s, 0)
  else
    c <- index (bs_binary s) cur ;;
    let bits := Z.shiftr c bit_idx in
    let remaining := 128 - bit_idx in
    bits <- (if remaining <? num_bits then
               n <- index (bs_binary s) nxt ;;
               hi <- ushl p 128 n remaining ;;
               Ok (Z.lor bits hi)
             else Ok bits) ;;
    Ok (s, Z.land bits mask).

(** bitstream.rs:175-183.  [write_bit]. *)
Definition write_bit (p : profile) (s : bitstream) (val : Z) : outcome bitstream :=
  let bit := Z.land val 1 in
  let idx := chunk_index s in
  let bit_idx := chunk_bit_index s in
  let s := allocate_if_needed s idx in
  c0 <- index (bs_binary s) idx ;;
  let c1 := Z.land c0 (Z.shiftl 1 bit_idx - 1) in
  let c2 := Z.lor c1 (uwrap 128 (Z.shiftl bit bit_idx)) in
  b <- store (bs_binary s) idx c2 ;;
  offset_bit_cursor p (set_binary s b) 1.

(** bitstream.rs:189-198.  [read_bit]: past the allocated chunks it returns 0
    and does not move. *)
Definition read_bit (p : profile) (s : bitstream) : outcome (bitstream * Z) :=
  let idx := chunk_index s in
  let bit_idx := chunk_bit_index s in
  if zlen (bs_binary s) <=? idx then Ok (s, 0)
  else
    s' <- offset_bit_cursor p s 1 ;;
    c <- index (bs_binary s') idx ;;
    Ok (s', Z.land (Z.shiftr c bit_idx) 1).

(** bitstream.rs:202-206.  [read_bits]. *)
Definition read_bits (p : profile) (s : bitstream) (n : Z) : outcome (bitstream * Z) :=
  '(s, v) <- peek_bits p s n ;;
  s <- offset_bit_cursor p s n ;;
  Ok (s, v).

(** bitstream.rs:215-221.  [write::<T>] for a [T] of [size] bits. *)
Definition write_typed (p : profile) (s : bitstream) (val size : Z) : outcome bitstream :=
  write_bits p s val size.

(** bitstream.rs:208-213, 224-233.  [peek::<T>], [read::<T>] for a [T] of [size] bits. *)
Definition read_typed (p : profile) (s : bitstream) (size : Z) : outcome (bitstream * Z) :=
  '(s, v) <- peek_bits p s size ;;
  s <- offset_bit_cursor p s size ;;
  Ok (s, v).

(** bitstream.rs:302-310.  The unary loop of [write_compressed].  [quotient] is an
    i16, so 257 iterations are always enough. *)
Fixpoint write_unary (p : profile) (fuel : nat) (s : bitstream) (quotient : Z)
  : outcome bitstream :=
  match fuel with
  | O => OutOfFuel
  | S fuel =>
      if 0 <? quotient then
        if 128 <? quotient then
          s <- write_bits p s (2 ^ 128 - 1) 128 ;;
          write_unary p fuel s (quotient - 128)
        else write_bits p s (2 ^ 128 - 1) quotient
      else Ok s
  end.

(** bitstream.rs:283-318.  [write_compressed(exponent, entropy)], both i16.
    [(entropy >> 15) & 1] is 1 exactly for negative values.
    The remainder is an i16 cast to u32. *)
Definition write_compressed (p : profile) (s : bitstream) (exponent entropy : Z)
  : outcome bitstream :=
  let sign_bit := if entropy <? 0 then 1 else 0 in
  mag <- schk p 16 (Z.abs entropy) ;;
  quotient <- shr p 16 mag exponent ;;
  mag' <- schk p 16 (Z.abs entropy) ;;
  one <- sshl p 16 1 exponent ;;
  mask <- schk p 16 (one - 1) ;;
  let remainder := Z.land mag' mask in
  let remainder_size := uwrap 64 exponent in
  s <- write_bit p s sign_bit ;;
  s <- write_unary p 257 s quotient ;;
  s <- write_bit p s 0 ;;
  write_bits p s (uwrap 32 remainder) remainder_size.

(** bitstream.rs:332-338.  The loop that skips full chunks of ones. *)
Fixpoint skip_ones (p : profile) (fuel : nat) (s : bitstream) (quotient : Z)
  : outcome (bitstream * Z * Z) :=
  match fuel with
  | O => OutOfFuel
  | S fuel =>
      '(s, chunk) <- peek_bits p s 128 ;;
      if chunk =? 2 ^ 128 - 1 then
        s <- offset_bit_cursor p s 128 ;;
        q <- schk p 16 (quotient + 128) ;;
        skip_ones p fuel s q
      else Ok (s, quotient, chunk)
  end.

(** bitstream.rs:342-346.  Number of trailing ones of the peeked chunk, at most 128. *)
Fixpoint trailing_ones (fuel : nat) (chunk : Z) : Z :=
  match fuel with
  | O => 0
  | S fuel => if Z.odd chunk then 1 + trailing_ones fuel (Z.shiftr chunk 1) else 0
  end.

(** bitstream.rs:320-354.  [read_compressed].  The chunk loop runs at most once per
    allocated chunk plus two: past the end [peek] sees zeros. *)
Definition read_compressed (p : profile) (s : bitstream) (exponent : Z)
  : outcome (bitstream * Z) :=
  '(s, sign_bit) <- read_bit p s ;;
  let remainder_size := uwrap 32 exponent in
  divisor <- sshl p 16 1 exponent ;;
  '(s, quotient, chunk) <- skip_ones p (S (S (length (bs_binary s)))) s 0 ;;
  let zero_bit_pos := trailing_ones 128 chunk in
  s <- offset_bit_cursor p s (zero_bit_pos + 1) ;;
  quotient <- schk p 16 (quotient + zero_bit_pos) ;;
  '(s, r) <- read_bits p s remainder_size ;;
  let remainder := swrap 16 r in
  prod <- schk p 16 (divisor * quotient) ;;
  unsigned_val <- schk p 16 (prod + remainder) ;;
  neg_sign <- schk p 16 (- sign_bit) ;;
  a <- schk p 16 (unsigned_val * neg_sign) ;;
  pos <- schk p 16 (1 - sign_bit) ;;
  b <- schk p 16 (unsigned_val * pos) ;;
  v <- schk p 16 (a + b) ;;
  Ok (s, v).

(** [i16::count_ones]. *)
Definition count_ones16 (x : Z) : Z :=
  fold_left (fun acc i => acc + Z.b2z (Z.testbit x (Z.of_nat i))) (seq 0 16) 0.

(** bitstream.rs:276-281.  [write_compressed_divisor], [read_compressed_divisor]. *)
Definition write_compressed_divisor (p : profile) (s : bitstream) (divisor entropy : Z)
  : outcome bitstream :=
  d <- schk p 16 (divisor - 1) ;;
  write_compressed p s (count_ones16 d) entropy.
Definition read_compressed_divisor (p : profile) (s : bitstream) (divisor : Z)
  : outcome (bitstream * Z) :=
  d <- schk p 16 (divisor - 1) ;;
  read_compressed p s (count_ones16 d).

(** bitstream.rs:255-265.  [write_compressed_capped::<DIVISOR>].  i16 division
    truncates; [i16::MIN / -1] panics in every profile. *)
Definition write_compressed_capped (p : profile) (s : bitstream) (divisor value : Z)
  : outcome bitstream :=
  mag <- schk p 16 (Z.abs value) ;;
  quotient <- (if divisor =? 0 then Panic DivisionByZero
               else if (mag =? -32768) && (divisor =? -1) then Panic ArithmeticOverflow
               else Ok (Z.quot mag divisor)) ;;
  if quotient <? 16 then
    s <- write_bit p s 0 ;;
    write_compressed_divisor p s divisor value
  else
    s <- write_bit p s 1 ;;
    write_bits p s (uwrap 16 (zclamp value CAPPED_MIN CAPPED_MAX)) CAPPED_BITS.

(** bitstream.rs:267-275.  [read_compressed_capped]: sign extension through i128
    shifts. *)
Definition read_compressed_capped (p : profile) (s : bitstream) (divisor : Z)
  : outcome (bitstream * Z) :=
  '(s, flag) <- read_bit p s ;;
  if flag =? 1 then
    '(s, bits_read) <- read_bits p s CAPPED_BITS ;;
    let shifted := swrap 128 (Z.shiftl bits_read CAPPED_SHIFT_FACTOR) in
    Ok (s, swrap 16 (Z.shiftr shifted CAPPED_SHIFT_FACTOR))
  else read_compressed_divisor p s divisor.
