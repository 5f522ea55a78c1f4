(** The [Format] implementations of [defmt] for types of the core library that are written
    with [write!]: the calls each of them makes.  All have type [RManual]; the pieces of
    the value are given as parameters. *)
From Verif Require Import Base ParserModel EncodeModel.

Definition writes (s : string) (args : list aval) : rval := VWrites [SWrite (lit s) args].

Definition u8_arg (x : Z) : aval := AvFmt (RPrim (PU W8)) (VNum x).
Definition usize_arg (x : Z) : aval := AvFmt (RPrim PUsize) (VNum x).

(** [defmt/src/impls/core_/ops.rs:3-61]. *)
Definition range (t : rty) (a b : rval) : rval := writes "{}..{}" [AvFmt t a; AvFmt t b].
Definition range_from (t : rty) (a : rval) : rval := writes "{}.." [AvFmt t a].
Definition range_full : rval := writes ".." [].
Definition range_inclusive (t : rty) (a b : rval) : rval := writes "{}..={}" [AvFmt (RRef t) a; AvFmt (RRef t) b].
Definition range_to (t : rty) (b : rval) : rval := writes "..{}" [AvFmt t b].
Definition range_to_inclusive (t : rty) (b : rval) : rval := writes "..={}" [AvFmt t b].

(** [core_/mod.rs:100-122]. *)
Definition duration (secs nanos : Z) : rval :=
  writes "Duration {{ secs: {=u64}, nanos: {=u32} }}" [AvPrim (VNum secs); AvPrim (VNum nanos)].
Definition zip : rval := writes "Zip(..)" [].

(** [core_/cell.rs:3-10, 36-46]; [RefCell] is [refcell_ty]. *)
Definition cell (t : rty) (v : rval) : rval := writes "Cell {{ value: {=?} }})" [AvFmt t v].
Definition borrow_error : rval := writes "BorrowError" [].
Definition borrow_mut_error : rval := writes "BorrowMutError" [].

(** [core_/slice.rs:3-34]. *)
Definition chunks_exact : rval := writes "ChunksExact(..)" [].
Definition slice_iter (t : rty) (vs : list rval) : rval :=
  writes "Iter {{ slice: {=[?]}, position: ? }}" [AvSlice t vs].
Definition windows : rval := writes "Windows(..)" [].

(** [primitives.rs:73-92], [core_/ptr.rs:3-7, 27-60]: raw pointers, [NonNull] and function
    pointers with address [x]. *)
Definition const_pointer (x : Z) : rval := writes "0x{:x}" [usize_arg x].
Definition mut_pointer (x : Z) : rval := VWrites [SDelegate (RRef RManual) (const_pointer x)].
Definition non_null (x : Z) : rval := writes "{}" [AvFmt RManual (mut_pointer x)].
Definition fn_pointer (x : Z) : rval := writes "{}" [AvFmt RManual (const_pointer x)].

(** [core_/net.rs:5-75]. *)
Definition addr_parse_error : rval := writes "AddrParseError(_)" [].
Definition ipv4 (a b c d : Z) : rval := writes "{}.{}.{}.{}" [u8_arg a; u8_arg b; u8_arg c; u8_arg d].
Definition ipv6 (octets : list Z) : rval :=
  writes "{:02x}{:02x}:{:02x}{:02x}:{:02x}{:02x}:{:02x}{:02x}:{:02x}{:02x}:{:02x}{:02x}:{:02x}{:02x}:{:02x}{:02x}"
    (map u8_arg octets).
Definition socket_v4 (ip : rval) (port : Z) : rval :=
  writes "{}:{}" [AvFmt (RRef RManual) ip; AvFmt (RPrim (PU W16)) (VNum port)].
Definition socket_v6 (ip : rval) (port : Z) : rval :=
  writes "[{}]:{}" [AvFmt (RRef RManual) ip; AvFmt (RPrim (PU W16)) (VNum port)].
(** [IpAddr] and [SocketAddr], both variants. *)
Definition any_addr (v : rval) : rval := writes "{}" [AvFmt (RRef RManual) v].

(** [core_/num.rs:5-34]: [NonZeroU8] etc. *)
Definition nonzero (p : prim) (x : Z) : rval :=
  VWrites [SWrite (lit "{=" ++ prim_name p ++ lit "}") [AvPrim (VNum x)]].
Definition try_from_int_error : rval := writes "TryFromIntError(())" [].

(** [core_/panic.rs:5-29]. *)
Definition location (file : bytes) (line column : Z) : rval :=
  writes "{=str}:{=u32}:{=u32}" [AvPrim (VText file); AvPrim (VNum line); AvPrim (VNum column)].
Definition panic_info (loc : option rval) : rval :=
  match loc with
  | Some l => writes "panicked at {}" [AvFmt (RRef RManual) l]
  | None => writes "panicked" []
  end.

(** [core_/alloc_.rs:5-14], [core_/array.rs:5-9]. *)
Definition layout (size align : Z) : rval :=
  writes "Layout {{ size: {}, align: {} }}" [usize_arg size; usize_arg align].
Definition try_from_slice_error : rval := writes "TryFromSliceError(())" [].

(** [tuples.rs:4-55]: tuples of up to twelve components; [()] for none. *)
Fixpoint tuple_body (n : nat) : bytes :=
  match n with
  | O => []
  | S O => lit "{=?}"
  | S n' => lit "{=?}, " ++ tuple_body n'
  end.
Definition tuple_ty (ts : list rty) : rty := RComp (lit "(" ++ tuple_body (length ts) ++ lit ")") ts.
Definition phantom_ty : rty := RComp (lit "PhantomData") [].
