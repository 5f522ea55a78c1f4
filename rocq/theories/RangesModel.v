(** [defmt::IdRanges] ([defmt/src/lib.rs:424-467]): the indices of the log statements of each
    level, for loggers that filter frames on the device. *)
From Verif Require Import Base ParserModel LinkModel.

(** [lib.rs:449-458]: [&MARKER as *const u8 as u16]. *)
Definition as_u16 (a : Z) : Z := a mod 65536.

(** [lib.rs:459-465]: [start..end] for each level. *)
Definition id_range (k : image) (l : level) : Z * Z :=
  (as_u16 (marker (level_start l) (im_markers k)), as_u16 (marker (level_end l) (im_markers k))).

(** [core::ops::Range::contains]. *)
Definition contains (r : Z * Z) (i : Z) : bool := (fst r <=? i) && (i <? snd r).
