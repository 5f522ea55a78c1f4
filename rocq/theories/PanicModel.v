(** Panics on the device: the same code as [EncodeModel], with the [unreachable!()]
    calls made explicit.  [None] stands for a panic, [Some b] for a call that returns
    after writing the bytes [b].

    - [core::convert::Infallible] ([defmt/src/impls/core_/mod.rs:87-99]) is the library
      enum without alternatives; asking for its tag is [unreachable!()];
    - the [format] methods generated by [derive(Format)] and [bitflags!] are
      [unreachable!()] ([macros/src/derives/format.rs:46-49],
      [macros/src/items/bitflags.rs:48-50]); tag and data are fine.

    Not modelled: [NoneError::format] ([defmt/src/export/traits.rs:43-45], a hidden
    type), which panics like derived ones. *)
From Verif Require Import Base ParserModel EncodeModel.

Definition infallible_ty : rty := RLibEnum [].

Definition obind {A B} (x : option A) (k : A -> option B) : option B :=
  match x with Some a => k a | None => None end.

(** Run one after the other. *)
Definition seq (x y : option bytes) : option bytes :=
  obind x (fun a => obind y (fun b => Some (a ++ b))).

Fixpoint seqs (l : list (option bytes)) : option bytes :=
  match l with [] => Some [] | x :: l' => seq x (seqs l') end.

Section Device.
  Context (addr : bytes -> Z).

  (** [export::istr(&T::_format_tag())] *)
  Definition run_tag (t : rty) : option bytes :=
    match strip t with
    | RLibEnum [] => None
    | _ => Some (put_istr addr (format_tag t))
    end.

  (** [x._format_data()] *)
  Fixpoint run_data (t : rty) (v : rval) {struct v} : option bytes :=
    match strip t, v with
    | RPrim p, _ => Some (put_prim addr p v)
    | RSlice e, VList vs =>
        seq (Some (le_bytes 4 (Z.of_nat (length vs)))) (seq (run_tag e) (seqs (map (run_data e) vs)))
    | RArray n e, VList vs =>
        if listed_length n then seq (run_tag e) (seqs (map (run_data e) vs))
        else seq (Some (le_bytes 4 (Z.of_nat (length vs)))) (seq (run_tag e) (seqs (map (run_data e) vs)))
    | RComp _ ts, VList vs => seqs (map2 (fun t' v' => seq (run_tag t') (run_data t' v')) ts vs)
    | RLibEnum alts, VVar k vs =>
        seq (Some (le_bytes 1 (Z.of_nat k)))
          (seqs (map2 (fun t' v' => seq (run_tag t') (run_data t' v'))
            (match nth_error alts k with Some (_, ts) => ts | None => [] end) vs))
    | RDebug, VText s => Some (s ++ [255])
    | RDisplay, VText s => Some (s ++ [255])
    | RManual, VWrites ws => seq (seqs (map run_call ws)) (Some (le_bytes 2 0))
    | RStruct _ _ fs, VList vs =>
        seqs (map2 (fun f v' =>
          let '(_, a, t') := f in
          match a with
          | Some ADebug2 => seq (Some (put_istr addr debug_tag)) (run_data RDebug v')
          | Some ADisplay2 => seq (Some (put_istr addr display_tag)) (run_data RDisplay v')
          | None =>
              match as_native t' with
              | Some p => Some (put_prim addr p v')
              | None => seq (run_tag t') (run_data t' v')
              end
          end) fs vs)
    | REnum variants, VVar k vs =>
        seq (Some (le_bytes (discriminant_bytes (Z.of_nat (length variants))) (Z.of_nat k)))
          (seqs (map2 (fun f v' =>
            let '(_, a, t') := f in
            match a with
            | Some ADebug2 => seq (Some (put_istr addr debug_tag)) (run_data RDebug v')
            | Some ADisplay2 => seq (Some (put_istr addr display_tag)) (run_data RDisplay v')
            | None =>
                match as_native t' with
                | Some p => Some (put_prim addr p v')
                | None => seq (run_tag t') (run_data t' v')
                end
            end)
            (match nth_error variants k with Some (_, _, fs) => fs | None => [] end) vs))
    | RFlags w _ _ _ _, VNum _ => Some (put_prim addr (PU w) v)
    | _, _ => Some []
    end

  (** One statement of a hand-written [format]. *)
  with run_call (w : wcall) {struct w} : option bytes :=
    match w with
    | SWrite s args =>
        match parse s Strict with
        | Ok frags => seq (Some (put_istr addr s)) (seqs (mapi (run_arg (frag_parameters frags)) 0 args))
        | _ => Some []
        end
    | SDelegate t v =>
        match strip t, v with
        | RManual, VWrites ws => seqs (map run_call ws)
        | _, _ => if delegate_panics t then None else seq (run_tag t) (run_data t v)
        end
    end

  (** One argument of a logging macro. *)
  with run_arg (ps : list parameter) (i : Z) (a : aval) {struct a} : option bytes :=
    match first_ty ps i, a with
    | Some x, AvPrim v => match prim_of_ty x with Some p => Some (put_prim addr p v) | None => Some [] end
    | Some TFormat, AvFmt t v => seq (run_tag t) (run_data t v)
    | Some TFormatSlice, AvSlice t vs =>
        seq (Some (le_bytes 4 (Z.of_nat (length vs)))) (seq (run_tag t) (seqs (map (run_data t) vs)))
    | Some (TFormatArray _), AvSlice t vs => seq (run_tag t) (seqs (map (run_data t) vs))
    | Some TDebug, AvText s | Some TDisplay, AvText s => Some (s ++ [255])
    | Some TU8Slice, AvBytes s => Some (le_bytes 4 (Z.of_nat (length s)) ++ s)
    | Some (TU8Array _), AvBytes s => Some s
    | Some (TBitField _ _), AvBits _ x =>
        match get_max_bitfield_range (filter (fun p => p_index p =? i) ps) with
        | Some (Some (lo, hi)) => Some (put_bits lo hi x)
        | _ => Some []
        end
    | _, _ => Some []
    end.

  Definition run_args (s : bytes) (args : list aval) : option bytes :=
    match parse s Strict with
    | Ok frags => seqs (mapi (run_arg (frag_parameters frags)) 0 args)
    | _ => Some []
    end.

  (** A whole log statement, as in [encode_frame]. *)
  Definition run_frame (index : Z) (timestamp : option bytes) (timestamp_args : list aval)
      (format : bytes) (args : list aval) : option bytes :=
    seq (Some (le_bytes 2 index))
      (seq (match timestamp with Some s => run_args s timestamp_args | None => Some [] end)
        (run_args format args)).
End Device.
