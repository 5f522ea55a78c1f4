(** Which methods of which types are called while a value is formatted: the tag of a
    type is requested ([ITag]) or a hand-written [format] calls the [format] method of
    a value of a type ([ICall]). *)
From Verif Require Import Base ParserModel EncodeModel.

Inductive item := ITag (t : rty) | ICall (t : rty).

(** [derive(Format)] or [bitflags!], possibly behind references. *)
Inductive derived : rty -> Prop :=
| DV_struct n k fs : derived (RStruct n k fs)
| DV_enum vs : derived (REnum vs)
| DV_flags w n p d c : derived (RFlags w n p d c)
| DV_ref t : derived t -> derived (RRef t)
| DV_opaque t : derived t -> derived (ROpaque t).

(** [Infallible], possibly behind references. *)
Inductive never : rty -> Prop :=
| NV_inf : never (RLibEnum [])
| NV_ref t : never t -> never (RRef t)
| NV_opaque t : never t -> never (ROpaque t).

(** Argument number [n] of the statement with format string [s] has type [x]. *)
Definition arg_is (s : bytes) (n : nat) (x : ty) : Prop :=
  exists frags p, parse s Strict = Ok frags /\ In (FParam p) frags /\
    p_index p = Z.of_nat n /\ p_ty p = x.

(** What happens while formatting a value, a field, a statement of a hand-written
    [format], an argument. *)
Inductive in_data : rty -> rval -> item -> Prop :=
| ID_ref t v i : in_data t v i -> in_data (RRef t) v i
| ID_opaque t v i : in_data t v i -> in_data (ROpaque t) v i
| ID_slice t vs i : in_elements t vs i -> in_data (RSlice t) (VList vs) i
| ID_array n t vs i : in_elements t vs i -> in_data (RArray n t) (VList vs) i
| ID_comp s ts vs n t v i : nth_error ts n = Some t -> nth_error vs n = Some v ->
    in_value t v i -> in_data (RComp s ts) (VList vs) i
| ID_libenum alts k s ts vs n t v i : nth_error alts k = Some (s, ts) ->
    nth_error ts n = Some t -> nth_error vs n = Some v ->
    in_value t v i -> in_data (RLibEnum alts) (VVar k vs) i
| ID_manual ws w i : In w ws -> in_call w i -> in_data RManual (VWrites ws) i
| ID_struct name k fs vs n x t v i : nth_error fs n = Some (x, None, t) -> nth_error vs n = Some v ->
    as_native t = None -> in_value t v i -> in_data (RStruct name k fs) (VList vs) i
| ID_enum variants j name k fs vs n x t v i : nth_error variants j = Some (name, k, fs) ->
    nth_error fs n = Some (x, None, t) -> nth_error vs n = Some v ->
    as_native t = None -> in_value t v i -> in_data (REnum variants) (VVar j vs) i
with in_value : rty -> rval -> item -> Prop :=
| IV_tag t v : in_value t v (ITag t)
| IV_data t v i : in_data t v i -> in_value t v i
with in_elements : rty -> list rval -> item -> Prop :=
| IE_tag t vs : in_elements t vs (ITag t)
| IE_data t vs v i : In v vs -> in_data t v i -> in_elements t vs i
with in_call : wcall -> item -> Prop :=
| IC_write s args n a i : nth_error args n = Some a -> in_arg s n a i -> in_call (SWrite s args) i
| IC_call t v : in_call (SDelegate t v) (ICall t)
| IC_manual t ws w i : strip t = RManual -> In w ws -> in_call w i -> in_call (SDelegate t (VWrites ws)) i
| IC_value t v i : strip t <> RManual -> in_value t v i -> in_call (SDelegate t v) i
with in_arg : bytes -> nat -> aval -> item -> Prop :=
| IA_fmt s n t v i : arg_is s n TFormat -> in_value t v i -> in_arg s n (AvFmt t v) i
| IA_slice s n t vs i : arg_is s n TFormatSlice -> in_elements t vs i -> in_arg s n (AvSlice t vs) i
| IA_array s n m t vs i : arg_is s n (TFormatArray m) -> in_elements t vs i -> in_arg s n (AvSlice t vs) i.

(** A log statement with its timestamp. *)
Inductive in_frame (ts : option bytes) (ts_args : list aval) (s : bytes) (args : list aval) (i : item) : Prop :=
| IF_arg n a : nth_error args n = Some a -> in_arg s n a i -> in_frame ts ts_args s args i
| IF_ts s' n a : ts = Some s' -> nth_error ts_args n = Some a -> in_arg s' n a i ->
    in_frame ts ts_args s args i.

(** What the device must not be asked to do. *)
Inductive bad : item -> Prop :=
| B_tag t : never t -> bad (ITag t)
| B_call t : derived t -> bad (ICall t).
