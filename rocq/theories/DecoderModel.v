(** Model of the host decoder: [decoder/src/lib.rs] (the string table and
    [Table::decode]) and [decoder/src/decoder.rs]. *)
From Verif Require Import Base Utf8 RzcobsModel ParserModel.

(** [decoder/src/lib.rs:39-63] [enum Tag]. *)
Inductive tag :=
| GPrim | GDerived | GBitflags | GWrite | GStr | GTimestamp
| GBitflagsValue | GPrintln
| GTrace | GDebug | GInfo | GWarn | GError.

(** [decoder/src/lib.rs:66-75] [Tag::to_level]. *)
Definition tag_level (t : tag) : option level :=
  match t with
  | GTrace => Some LTrace
  | GDebug => Some LDebug
  | GInfo => Some LInfo
  | GWarn => Some LWarn
  | GError => Some LError
  | _ => None
  end.

(** [decoder/src/lib.rs:78-110] [TableEntry] and [StringEntry], flattened. *)
Record entry := MkEntry { e_tag : tag; e_string : bytes; e_symbol : bytes }.

(** [decoder/src/lib.rs:114-120] [BitflagsKey]. *)
Record bitflags_key := MkKey {
  k_ident : bytes; k_package : bytes; k_disambig : bytes; k_crate : option bytes }.

(** [decoder/src/lib.rs:125-130] [enum Encoding]. *)
Inductive encoding := EncRaw | EncRzcobs.

(** [decoder/src/lib.rs:156-161] [struct Table]; the maps are association lists
    (first match wins; the table builder keeps keys unique). *)
Record table := MkTable {
  t_timestamp : option entry;
  t_entries : list (Z * entry);
  t_bitflags : list (bitflags_key * list (bytes * Z));
  t_encoding : encoding }.

Fixpoint lookup_entry (i : Z) (es : list (Z * entry)) : option entry :=
  match es with
  | [] => None
  | (j, e) :: es' => if i =? j then Some e else lookup_entry i es'
  end.

(** [decoder/src/lib.rs:182-189] [_get], [get_with_level]. *)
Definition get_with_level (t : table) (i : Z) : option (option level * bytes) :=
  match lookup_entry i (t_entries t) with
  | Some e => Some (tag_level (e_tag e), e_string e)
  | None => None
  end.

(** [decoder/src/lib.rs:191-198] [get_without_level]. *)
Definition get_without_level (t : table) (i : Z) : option bytes :=
  match get_with_level t i with
  | Some (None, f) => Some f
  | _ => None
  end.

(** [decoder/src/lib.rs:200-208] [indices]. *)
Definition is_log_tag (g : tag) : bool :=
  match tag_level g, g with
  | Some _, _ => true
  | None, GPrintln => true
  | None, _ => false
  end.
Definition indices (t : table) : list Z :=
  map fst (filter (fun ie => is_log_tag (e_tag (snd ie))) (t_entries t)).

(** [decoder/src/lib.rs:283-314] [enum Arg] and [316-322] [FormatSliceElement].
    Floats are kept as their bit patterns. *)
Inductive arg :=
| ABool (b : bool)
| AF32 (bits : Z)
| AF64 (bits : Z)
| AUxx (x : Z)
| AIxx (x : Z)
| AStr (s : bytes)
| AIStr (s : bytes)
| AFormat (format : bytes) (args : list arg)
| AFormatSlice (elements : list (bytes * list arg))
| AFormatSequence (args : list arg)
| ASlice (s : bytes)
| AChar (c : Z)
| APreformatted (s : bytes).

(** Decoder steps: take the remaining bytes, return the rest with the value
    (or fail; the position is then irrelevant). *)
Definition reader (A : Type) : Type := bytes -> outcome decode_error (A * bytes).

Definition ret {A} (a : A) : reader A := fun b => Ok (a, b).
Definition fail {A} (e : decode_error) : reader A := fun _ => Err e.
Definition rbind {A B} (m : reader A) (f : A -> reader B) : reader B :=
  fun b => bind (m b) (fun ar => f (fst ar) (snd ar)).

(** Reading exactly [n] bytes: byteorder's [read_*] on [&[u8]] fails with
    [UnexpectedEof] when fewer remain ([decoder/src/lib.rs:333-341]).  Also
    used for the byte-by-byte loops of [Str], [U8Slice] and [U8Array]
    ([decoder/src/decoder.rs:174-176, 200-202, 208-210]), which fail the same way. *)
Definition read_bytes (n : Z) : reader bytes :=
  fun b => if n <=? Z.of_nat (length b)
           then Ok (firstn (Z.to_nat n) b, skipn (Z.to_nat n) b)
           else Err UnexpectedEof.

Definition read_u (n : nat) : reader Z :=
  rbind (read_bytes (Z.of_nat n)) (fun l => ret (le_value l)).
Definition read_i (n : nat) : reader Z :=
  rbind (read_u n) (fun x => ret (to_signed n x)).

Definition lift_option {A} (o : option A) : reader A :=
  match o with Some a => ret a | None => fail Malformed end.

(** [decoder/src/decoder.rs:31-39] [get_format]. *)
Definition get_format (t : table) : reader bytes :=
  rbind (read_u 2) (fun i => lift_option (get_without_level t i)).

Definition has_bar (s : bytes) : bool := existsb (fun c => c =? 124) s.

(** [decoder/src/decoder.rs:45-63]: width of the discriminant from the number
    of ['|']. *)
Definition discriminant_width (bars : Z) : option nat :=
  if bars <? 2 ^ 8 then Some 1%nat
  else if bars <? 2 ^ 16 then Some 2%nat
  else if bars <? 2 ^ 32 then Some 4%nat
  else if bars <? 2 ^ 64 then Some 8%nat
  else None.

(** [split('|').nth(d)]. *)
Definition nth_variant (f : bytes) (d : Z) : option bytes :=
  let vs := split_on 124 f in
  if d <? Z.of_nat (length vs) then nth_error vs (Z.to_nat d) else None.

(** [decoder/src/decoder.rs:41-69] [get_variant]; the assertion on line 42 is a
    [Panic]. *)
Definition get_variant (f : bytes) : reader bytes :=
  if negb (has_bar f) then fun _ => Panic
  else
    let bars := Z.of_nat (length (filter (fun c => c =? 124) f)) in
    match discriminant_width bars with
    | None => fail Malformed
    | Some n => rbind (read_u n) (fun d => lift_option (nth_variant f d))
    end.

(** [decoder/src/decoder.rs:97-102]. *)
Fixpoint params_of (fs : list fragment) : list parameter :=
  match fs with
  | [] => []
  | FParam p :: fs' => p :: params_of fs'
  | FLit _ :: fs' => params_of fs'
  end.

(** [decoder/src/decoder.rs:266-318] [merge_bitfields].  [get_max_bitfield_range]
    is applied to bitfields only, so its [unreachable!] cannot occur; the
    [None] branches below are dead and keep the parameters unchanged. *)
Definition bitfield_at (index : Z) (p : parameter) : bool :=
  is_bitfield (p_ty p) && (p_index p =? index).

Fixpoint merge_loop (indices : list Z) (ps merged : list parameter)
  : list parameter * list parameter :=
  match indices with
  | [] => (ps, merged)
  | i :: is =>
      match filter (bitfield_at i) ps with
      | [] => merge_loop is ps merged
      | bs =>
          match get_max_bitfield_range bs with
          | Some (Some (lo, hi)) =>
              merge_loop is (filter (fun p => negb (bitfield_at i p)) ps)
                (merged ++ [MkParameter i (TBitField lo hi) None])
          | _ => merge_loop is ps merged
          end
      end
  end.

Definition merge_bitfields (ps : list parameter) : list parameter :=
  match zmax (map p_index ps) with
  | None => ps
  | Some max_index =>
      let is := map Z.of_nat (seq 0 (S (Z.to_nat max_index))) in
      let '(ps, merged) := merge_loop is ps [] in ps ++ merged
  end.

(** [sort_by] (stable) by index. *)
Fixpoint insert_param (p : parameter) (ps : list parameter) : list parameter :=
  match ps with
  | [] => [p]
  | q :: ps' => if p_index p <=? p_index q then p :: q :: ps' else q :: insert_param p ps'
  end.
Fixpoint sort_params (ps : list parameter) : list parameter :=
  match ps with
  | [] => []
  | p :: ps' => insert_param p (sort_params ps')
  end.

(** [dedup_by]: of consecutive equal indices the first is kept. *)
Fixpoint dedup_params (last : option Z) (ps : list parameter) : list parameter :=
  match ps with
  | [] => []
  | p :: ps' =>
      match last with
      | Some i => if i =? p_index p then dedup_params last ps'
                  else p :: dedup_params (Some (p_index p)) ps'
      | None => p :: dedup_params (Some (p_index p)) ps'
      end
  end.

(** [decoder/src/decoder.rs:21-28] [prepare_params]. *)
Definition prepare_params (ps : list parameter) : list parameter :=
  dedup_params None (sort_params (merge_bitfields ps)).

(** [decoder/src/decoder.rs:151-168]: number of bytes sent for a bitfield. *)
Definition bitfield_size (lo hi : Z) : option nat :=
  let sz := (hi - 1) / 8 - lo / 8 + 1 in
  if sz =? 1 then Some 1%nat
  else if sz =? 2 then Some 2%nat
  else if (3 <=? sz) && (sz <=? 4) then Some 4%nat
  else if (5 <=? sz) && (sz <=? 8) then Some 8%nat
  else if (9 <=? sz) && (sz <=? 16) then Some 16%nat
  else None.

Definition u128_mod : Z := 2 ^ 128.

Section Decode.
  Context (t : table).

  Section Nested.
    (** The recursive call of [decode_format], and the budget for the iterations
        of a format sequence loop. *)
    Context (rec : bytes -> reader (list arg)) (seq_fuel : nat).

    (** [decoder/src/decoder.rs:79-87]: the element loop. *)
    Fixpoint decode_elements (n : nat) (f : bytes) (is_enum : bool)
      : reader (list (bytes * list arg)) :=
      match n with
      | O => ret []
      | S n' =>
          rbind (if is_enum then get_variant f else ret f) (fun v =>
          rbind (rec v) (fun args =>
          rbind (decode_elements n' f is_enum) (fun es =>
          ret ((v, args) :: es))))
      end.

    (** [decoder/src/decoder.rs:71-90] [decode_format_slice]. *)
    Definition decode_format_slice (n : Z) : reader (list (bytes * list arg)) :=
      rbind (get_format t) (fun f => decode_elements (Z.to_nat n) f (has_bar f)).

    (** [decoder/src/decoder.rs:238-254]: the format sequence loop.  Each
        iteration consumes two bytes; [fuel] bounds the iterations. *)
    Fixpoint decode_sequence (fuel : nat) : reader (list arg) :=
      match fuel with
      | O => fun _ => NoFuel
      | S fuel' =>
          rbind (read_u 2) (fun i =>
          if i =? 0 then ret []
          else
            rbind (lift_option (get_without_level t i)) (fun f =>
            rbind (rec f) (fun args =>
            rbind (decode_sequence fuel') (fun rest =>
            ret (AFormat f args :: rest)))))
      end.

    (** [decoder/src/decoder.rs:107-257]: one parameter. *)
    Definition decode_ty (x : ty) : reader arg :=
      match x with
      | TI w => rbind (read_i (width_bytes w)) (fun v => ret (AIxx v))
      | TIsize => rbind (read_i 4) (fun v => ret (AIxx v))
      | TU w => rbind (read_u (width_bytes w)) (fun v => ret (AUxx v))
      | TUsize => rbind (read_u 4) (fun v => ret (AUxx v))
      | TF32 => rbind (read_u 4) (fun v => ret (AF32 v))
      | TF64 => rbind (read_u 8) (fun v => ret (AF64 v))
      | TBool => rbind (read_u 1) (fun v =>
                 if v =? 0 then ret (ABool false)
                 else if v =? 1 then ret (ABool true)
                 else fail Malformed)
      | TFormatSlice =>
          rbind (read_u 4) (fun n =>
          rbind (decode_format_slice n) (fun es => ret (AFormatSlice es)))
      | TFormat =>
          rbind (get_format t) (fun f =>
          rbind (if has_bar f then get_variant f else ret f) (fun v =>
          rbind (rec v) (fun args => ret (AFormat v args))))
      | TBitField lo hi =>
          match bitfield_size lo hi with
          | Some n => rbind (read_u n) (fun v =>
                      ret (AUxx (Z.shiftl v (lo / 8 * 8) mod u128_mod)))
          | None => fun _ => Panic
          end
      | TStr =>
          rbind (read_u 4) (fun n =>
          rbind (read_bytes n) (fun s =>
          if utf8_valid s then ret (AStr s) else fail Malformed))
      | TIStr =>
          rbind (read_u 2) (fun i =>
          rbind (lift_option (get_without_level t i)) (fun s => ret (AIStr s)))
      | TU8Slice =>
          rbind (read_u 4) (fun n => rbind (read_bytes n) (fun s => ret (ASlice s)))
      | TU8Array n => rbind (read_bytes n) (fun s => ret (ASlice s))
      | TFormatArray n => rbind (decode_format_slice n) (fun es => ret (AFormatSlice es))
      | TChar =>
          rbind (read_u 4) (fun c => if is_scalar c then ret (AChar c) else fail Malformed)
      | TDebug | TDisplay =>
          fun b =>
            match position (fun x => x =? 255) b with
            | None => Err UnexpectedEof
            | Some e =>
                let data := firstn e b in
                if utf8_valid data then Ok (APreformatted data, skipn (S e) b)
                else Err Malformed
            end
      | TFormatSequence =>
          rbind (decode_sequence seq_fuel) (fun args => ret (AFormatSequence args))
      end.

    (** [decoder/src/decoder.rs:106-258]: the parameter loop. *)
    Fixpoint decode_params (ps : list parameter) : reader (list arg) :=
      match ps with
      | [] => ret []
      | p :: ps' =>
          rbind (decode_ty (p_ty p)) (fun a =>
          rbind (decode_params ps') (fun rest => ret (a :: rest)))
      end.
  End Nested.

  (** [decoder/src/decoder.rs:93-261] [decode_format].  [fuel] bounds the
      nesting depth and the iterations of a format sequence; every nested call
      and every iteration is preceded by reading a 2-byte tag, so a budget above
      the number of remaining bytes is never exhausted ([decode_total]). *)
  Fixpoint decode_format (fuel : nat) (format : bytes) : reader (list arg) :=
    match fuel with
    | O => fun _ => NoFuel
    | S fuel' =>
        match parse format ForwardsCompatible with
        | Ok frags => decode_params (decode_format fuel') fuel (prepare_params (params_of frags))
        | Err _ => fail Malformed
        | Panic => fun _ => Panic
        | NoFuel => fun _ => NoFuel
        end
    end.
End Decode.

(** [decoder/src/frame.rs:43-52] [struct Frame] (without the table reference). *)
Record frame := MkFrame {
  f_level : option level;
  f_index : Z;
  f_timestamp_format : option bytes;
  f_timestamp_args : list arg;
  f_format : bytes;
  f_args : list arg }.

(** [decoder/src/lib.rs:228-263] [Table::decode], with explicit nesting budget. *)
Definition decode_fuel (t : table) (fuel : nat) : reader frame :=
  rbind (read_u 2) (fun index =>
  rbind (match t_timestamp t with
         | Some e => rbind (decode_format t fuel (e_string e)) (fun a => ret (Some (e_string e), a))
         | None => ret (None, [])
         end) (fun ts =>
  rbind (lift_option (get_with_level t index)) (fun lf =>
  rbind (decode_format t fuel (snd lf)) (fun args =>
  ret (MkFrame (fst lf) index (fst ts) (snd ts) (snd lf) args))))).

(** Result: the frame and the number of bytes consumed. *)
Definition decode (t : table) (b : bytes) : outcome decode_error (frame * nat) :=
  match decode_fuel t (S (length b)) b with
  | Ok (f, rest) => Ok (f, (length b - length rest)%nat)
  | Err e => Err e
  | Panic => Panic
  | NoFuel => NoFuel
  end.
