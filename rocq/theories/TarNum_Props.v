(* C32: tar numeric fields decode to what they encode. *)
From Verif Require Import Common ContentRange_Model ContentRange_Spec TarNum_Model TarNum_Spec TarNum_Proofs TarNumExact_Proofs.
Open Scope Z_scope.

(* Every base-256 field: its two's complement value if it fits int64, rejected otherwise. *)
Theorem C32_base256_is_twos_complement : forall b, bytes_ok b -> is_base256 b ->
  parse_numeric b = if (min_int64 <=? twos_value b) && (twos_value b <=? max_int64) then Some (twos_value b) else None.
Proof. exact parse_base256. Qed.
Print Assumptions C32_base256_is_twos_complement.

Theorem C32_base256_roundtrip : forall n v, (1 <= n)%nat -> in_int64 v ->
  - 2 ^ (8 * Z.of_nat n - 2) <= v < 2 ^ (8 * Z.of_nat n - 2) -> parse_numeric (base256_field n v) = Some v.
Proof. exact base256_roundtrip. Qed.
Print Assumptions C32_base256_roundtrip.

(* Every octal field: which ones are accepted, and the value given. *)
Theorem C32_octal_accepts_exactly : forall b v, parse_octal b = Some v <->
  (Forall pad_byte b /\ v = 0) \/ (exists n, octal_field b n /\ n < 2 ^ 64 /\ v = wrap64 n).
Proof. exact parse_octal_iff. Qed.
Print Assumptions C32_octal_accepts_exactly.

(* In fields of up to 20 bytes (tar's are 8 or 12) the value is exact. *)
Theorem C32_octal_field_exact : forall b n, octal_field b n -> zlen b <= 20 -> parse_octal b = Some n.
Proof. exact octal_field_exact. Qed.
Print Assumptions C32_octal_field_exact.

Theorem C32_octal_roundtrip : forall n x, (1 <= n <= 19)%nat -> 0 <= x < 8 ^ Z.of_nat n ->
  parse_numeric (octal_text n x) = Some x.
Proof. exact octal_roundtrip. Qed.
Print Assumptions C32_octal_roundtrip.

(* In longer fields an octal number above int64 is accepted and turns negative. *)
Theorem C32_long_octal_overflow_refuted : exists b n v, octal_field b n /\ max_int64 < n /\ parse_octal b = Some v /\ v < 0.
Proof.
  exists ([49%N] ++ repeat 48%N 21), (2 ^ 63), min_int64. split; [|vm_compute; auto].
  exists [], ([49%N] ++ repeat 48%N 21), []. split; [reflexivity|]. split; [constructor|]. split; [discriminate|].
  split; [cbn; repeat (apply Forall_cons; [lia|]); apply Forall_nil|]. split; [left; constructor|reflexivity].
Qed.
Print Assumptions C32_long_octal_overflow_refuted.

(* The three sparse-map encodings. *)
Theorem C32_sparse_map_0x1_roundtrip : forall m, map_ok m -> 2 * zlen m <= max_int64 ->
  read_map_0x1 (print_dec (zlen m)) (map_text_0x1 m) = Some m.
Proof. exact map_0x1_roundtrip. Qed.
Print Assumptions C32_sparse_map_0x1_roundtrip.

Theorem C32_sparse_map_1x0_roundtrip : forall m pad data, map_ok m -> 2 * zlen m <= max_int64 ->
  Z.divide 512 (zlen (map_text_1x0 m ++ pad)) -> read_map_1x0 (map_text_1x0 m ++ pad ++ data) = Some m.
Proof. exact map_1x0_roundtrip. Qed.
Print Assumptions C32_sparse_map_1x0_roundtrip.

Theorem C32_sparse_map_old_roundtrip : forall pre first groups post data, zlen pre = 386 -> zlen post = 29 ->
  map_ok first -> zlen first <= 4 -> Forall (fun g => map_ok g /\ zlen g <= 21) groups ->
  read_map_old (enc_header pre first groups post) (enc_extensions groups ++ data) = Some (first ++ concat groups).
Proof. exact map_old_roundtrip. Qed.
Print Assumptions C32_sparse_map_old_roundtrip.

(* Which text is a number, and which texts are maps: nothing else is accepted. *)
Theorem C32_integers_exactly : forall s z, parse_int s = Some z <-> int_text s z /\ in_int64 z.
Proof. exact parse_int_iff. Qed.
Print Assumptions C32_integers_exactly.

Theorem C32_sparse_map_0x1_exactly : forall c t m, read_map_0x1 c t = Some m <->
  int_text c (zlen m) /\ 2 * zlen m <= max_int64 /\ exists l, texts_of l m /\ t = join_on 44 l.
Proof. exact map_0x1_iff. Qed.
Print Assumptions C32_sparse_map_0x1_exactly.

Theorem C32_sparse_map_1x0_exactly : forall s m, read_map_1x0 s = Some m <->
  exists c l pad data, s = lines (c :: l) ++ pad ++ data /\ Z.divide 512 (zlen (lines (c :: l) ++ pad)) /\
    int_text c (zlen m) /\ 2 * zlen m <= max_int64 /\ texts_of l m.
Proof. exact map_1x0_iff. Qed.
Print Assumptions C32_sparse_map_1x0_exactly.

(* "-9", "+3" and "07" are numbers, "-9223372036854775809", "1_0" and "" are not; "2,-5" is a map
   of one entry, "2,5,1" is none. *)
Example C32_exact_met :
  int_text [45; 57]%N (-9) /\ int_text [43; 51]%N 3 /\ int_text [48; 55]%N 7 /\
  parse_int [45; 57; 50; 50; 51; 51; 55; 50; 48; 51; 54; 56; 53; 52; 55; 55; 53; 56; 48; 57]%N = None /\
  parse_int [45; 57; 50; 50; 51; 51; 55; 50; 48; 51; 54; 56; 53; 52; 55; 55; 53; 56; 48; 56]%N = Some min_int64 /\
  parse_int [49; 95; 48]%N = None /\ parse_int [] = None /\
  read_map_0x1 [49]%N [50; 44; 45; 53]%N = Some [(2, -5)] /\ read_map_0x1 [49]%N [50; 44; 53; 44; 49]%N = None /\
  read_map_1x0 (lines [[49]%N; [48; 50]%N; [45; 53]%N] ++ repeat 7%N 504) = Some [(2, -5)].
Proof.
  split; [right; right; exists [57%N], 9; repeat split; [discriminate|constructor; [lia|constructor]]|]. split; [right; left; exists [51%N]; repeat split; [discriminate|constructor; [lia|constructor]]|].
  split; [left; repeat split; [discriminate|constructor; [lia|constructor; [lia|constructor]]]|]. repeat split; vm_compute; reflexivity.
Qed.

Example C32_hypotheses_met :
  parse_numeric [255; 255; 255; 254]%N = Some (-2) /\ twos_value [255; 255; 255; 254]%N = -2 /\
  is_base256 [255; 255; 255; 254]%N /\ bytes_ok [255; 255; 255; 254]%N /\
  parse_numeric [128; 1; 0; 0; 0; 0; 0; 0; 0; 0]%N = None /\
  octal_field [32; 48; 49; 55; 0; 57]%N 15 /\ parse_numeric [32; 48; 49; 55; 0; 57]%N = Some 15 /\
  parse_numeric [49; 56; 0]%N = None /\
  map_text_0x1 [(2, 5); (18, 3)] = [50; 44; 53; 44; 49; 56; 44; 51]%N /\
  map_ok [(2, 5); (18, 3)] /\
  read_map_1x0 (map_text_1x0 [(2, 5)] ++ repeat 0%N 506) = Some [(2, 5)].
Proof.
  split; [vm_compute; reflexivity|]. split; [vm_compute; reflexivity|]. split; [exists 255%N, [255; 255; 254]%N; split; [reflexivity|lia]|].
  split; [repeat (apply Forall_cons; [lia|]); apply Forall_nil|]. split; [vm_compute; reflexivity|]. split.
  { exists [32%N], [48; 49; 55]%N, [0; 57]%N. split; [reflexivity|]. split; [apply Forall_cons; [left; reflexivity|constructor]|]. split; [discriminate|].
    split; [repeat (apply Forall_cons; [lia|]); apply Forall_nil|]. split; [right; eexists; reflexivity|reflexivity]. }
  split; [vm_compute; reflexivity|]. split; [vm_compute; reflexivity|]. split; [vm_compute; reflexivity|].
  split; [|vm_compute; reflexivity]. repeat (apply Forall_cons; [cbn; unfold max_int64; lia|]). apply Forall_nil.
Qed.
