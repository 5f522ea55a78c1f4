(** Property C74: what a message costs. *)
From Verif Require Import Base RzcobsModel RzcobsProofs ParserModel DecoderModel EncodeModel EncodeSpec EncodeMain SizeSpec SizeProofs.

(** C74.  The size of a message is given by the types and values in it: two bytes for the statement, what
    the arguments of the timestamp take and what its own arguments take ([SizeSpec]).  It does not depend on where the
    strings are in memory. *)
Theorem C74_frame : forall addr index timestamp ts_args format args m n,
  match timestamp with Some s => string_takes s ts_args m | None => m = 0 end ->
  string_takes format args n ->
  size (encode_frame addr index timestamp ts_args format args) = 2 + m + n.
Proof. intros addr index timestamp ts_args format args m n. exact (frame_size addr index timestamp ts_args format args n m). Qed.
Print Assumptions C74_frame.

(** Every statement that is shown as something has such a size, and just one. *)
Theorem C74_total : forall addr tbl index ts_args args fr,
  frame_means addr tbl index ts_args args fr ->
  exists m n,
    match f_timestamp_format fr with Some s => string_takes s ts_args m | None => m = 0 end /\
    string_takes (f_format fr) args n /\
    (forall n', string_takes (f_format fr) args n' -> n' = n) /\
    forall addr', size (encode_frame addr' index (f_timestamp_format fr) ts_args (f_format fr) args) = 2 + m + n.
Proof. exact frame_total. Qed.
Print Assumptions C74_total.

(** With rzCOBS, whatever was sent before and however the bytes are cut into writes, a message is on the
    line in at most one byte more per 134 bytes, three for the first or two for any other message. *)
Theorem C74_line : forall addr index timestamp ts_args format args m n history chunks,
  match timestamp with Some s => string_takes s ts_args m | None => m = 0 end ->
  string_takes format args n ->
  concat chunks = encode_frame addr index timestamp ts_args format args ->
  size (snd (frame_chunks (fst (frames_chunks enc_new history)) chunks)) <=
    (2 + m + n) + (2 + m + n) / 134 + match history with [] => 3 | _ :: _ => 2 end.
Proof. exact line_size. Qed.
Print Assumptions C74_line.

(** What the choice of a parameter is worth, wherever it is in a string and whatever else is in it.
    Two strings whose parameters differ in one place, [x] or [y], with all other arguments the same. *)
Definition saves (x : ty) (a : aval) (y : ty) (b : aval) (d : Z) : Prop :=
  forall addr s1 s2 pre post before after,
    arg_types s1 Strict (pre ++ x :: post) -> arg_types s2 Strict (pre ++ y :: post) ->
    length before = length pre -> length after = length post ->
    size (macro_args addr s1 (before ++ a :: after)) = size (macro_args addr s2 (before ++ b :: after)) + d.

(** [{=u8}] and the like for [{}]: two bytes. *)
Theorem C74_typed : forall x p v, prim_of_ty x = Some p -> saves TFormat (AvFmt (RPrim p) v) x (AvPrim v) 2.
Proof. intros x p v P addr s1 s2 pre post before after T1 T2 L1 L2. exact (exchange addr s1 s2 pre post before after _ _ _ _ _ T1 T2 L1 L2 (wire_prim addr x p v P)). Qed.
Print Assumptions C74_typed.

(** [{=[?]}] for [{}]: two bytes ([book/src/format-slices.md:21]). *)
Theorem C74_slice : forall t vs, saves TFormat (AvFmt (RSlice t) (VList vs)) TFormatSlice (AvSlice t vs) 2.
Proof. intros t vs addr s1 s2 pre post before after T1 T2 L1 L2. exact (exchange addr s1 s2 pre post before after _ _ _ _ _ T1 T2 L1 L2 (wire_slice addr t vs)). Qed.
Print Assumptions C74_slice.

(** [{=[?;N]}] for [{=[?]}]: four bytes ([format-slices.md:28-29]). *)
Theorem C74_array : forall n t vs, saves TFormatSlice (AvSlice t vs) (TFormatArray n) (AvSlice t vs) 4.
Proof. intros n t vs addr s1 s2 pre post before after T1 T2 L1 L2. exact (exchange addr s1 s2 pre post before after _ _ _ _ _ T1 T2 L1 L2 (wire_array addr n t vs)). Qed.
Print Assumptions C74_array.

(** [{=[u8]}] for [{=[?]}]: two bytes ([format-slices.md:23]). *)
Theorem C74_bytes : forall s, saves TFormatSlice (AvSlice (RPrim (PU W8)) (map VNum s)) TU8Slice (AvBytes s) 2.
Proof. intros s addr s1 s2 pre post before after T1 T2 L1 L2. exact (exchange addr s1 s2 pre post before after _ _ _ _ _ T1 T2 L1 L2 (wire_bytes_slice addr s)). Qed.
Print Assumptions C74_bytes.

(** [{=[u8;N]}] for [{=[u8]}]: four bytes ([ser-array.md:5]). *)
Theorem C74_byte_array : forall n s, saves TU8Slice (AvBytes s) (TU8Array n) (AvBytes s) 4.
Proof. intros n s addr s1 s2 pre post before after T1 T2 L1 L2. exact (exchange addr s1 s2 pre post before after _ _ _ _ _ T1 T2 L1 L2 (wire_byte_array addr n s)). Qed.
Print Assumptions C74_byte_array.

(** [{=istr}] for [{=str}]: two bytes and the length of the text ([istr.md:5]). *)
Theorem C74_interned : forall s, saves TStr (AvPrim (VText s)) TIStr (AvPrim (VText s)) (2 + size s).
Proof. intros s addr s1 s2 pre post before after T1 T2 L1 L2. exact (exchange addr s1 s2 pre post before after _ _ _ _ _ T1 T2 L1 L2 (wire_istr addr s s)). Qed.
Print Assumptions C74_interned.

(** [book/src/istr.md:12-14] says 43 bytes for the argument of [{=str}]; there are four more for its length. *)
Theorem C74_text_refuted : exists addr s, size s = 43 /\ size (macro_args addr (lit "{=str}") [AvPrim (VText s)]) <> 43.
Proof. exact text_costs_more. Qed.
Print Assumptions C74_text_refuted.

(** [book/src/primitives.md:24-28] says that boolean arguments can be compressed into a single byte; [ser-bool.md]
    says how, and is marked outdated.  They take a byte each. *)
Theorem C74_booleans_refuted : exists addr s a b c,
  arg_types s Strict [TBool; TBool; TBool] /\ size (macro_args addr s [AvPrim (VNum a); AvPrim (VNum b); AvPrim (VNum c)]) <> 1.
Proof. exact booleans_cost_more. Qed.
Print Assumptions C74_booleans_refuted.

(** [istr.md]: 47 bytes, two bytes, and none if the text is the format string. *)
Example fox : let s := lit "The quick brown fox jumps over the lazy dog" in
  size (macro_args (fun _ => 0) (lit "{=str}") [AvPrim (VText s)]) = 47 /\
  size (macro_args (fun _ => 0) (lit "{=istr}") [AvPrim (VText s)]) = 2 /\
  size (macro_args (fun _ => 0) s []) = 0.
Proof. repeat split. Qed.

(** The structure of [format-slices.md], three bytes an element whichever way it is sent; the bitfields of [ser-bitfield.md]. *)
Example slices :
  string_takes (lit "xs={}") [AvFmt (RSlice sample_x) (VList sample_xs)] 14 /\
  string_takes (lit "xs={=[?]}") [AvSlice sample_x sample_xs] 12 /\
  string_takes (lit "xs={=[?; 2]}") [AvSlice sample_x sample_xs] 8 /\
  string_takes (lit "{0=0..8} {0=8..12} {0=12..16}") [AvBits W16 513] 2 /\
  string_takes (lit "{0=8..12}") [AvBits W32 25359] 1.
Proof. exact sample_sizes. Qed.

Example slices_computed :
  size (macro_args (fun _ => 7) (lit "xs={}") [AvFmt (RSlice sample_x) (VList sample_xs)]) = 14 /\
  size (macro_args (fun _ => 7) (lit "xs={=[?; 2]}") [AvSlice sample_x sample_xs]) = 8 /\
  macro_args (fun _ => 7) (lit "{0=8..12}") [AvBits W32 25359] = [99].
Proof. repeat split. Qed.
