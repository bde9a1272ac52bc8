(** Words for messages. *)
From Verif.Model Require Export Messages.

(** [a] stands somewhere in [t]. *)
Definition part_of (a t : list char) : Prop := exists u v, t = u ++ a ++ v.

(** The entry of the locale under an id. *)
Definition entry (id : string) (p : list piece) : Prop := In (chars id, p) locale_messages.

(** The message under [id] with the given tags shows every tag and leaves no variable open. *)
Definition shows_tags (id : string) (l : tags) : Prop :=
  forall k v, In (k, v) l -> part_of v (localize id l).
Definition nothing_open (id : string) (l : tags) : Prop :=
  exists p, entry id p /\ forall n, In (PVar n) p -> exists k v, In (k, v) l /\ n = chars k.
