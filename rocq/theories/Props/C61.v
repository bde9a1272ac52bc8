(** C61: every error a user meets has a message of its own that shows what the error was raised with. *)
From Verif.Spec Require Import MessageSpec.
From Verif.Proofs Require MessagesP.

(** Two codes are told apart by their strings, but for one pair (full claim: always; refuted below). *)
Theorem C61_codes_distinct_partial a b :
  code_text a = code_text b ->
  a = b \/ (a = INVALID_SCRIPT_LOCATION /\ b = GLOBAL_ALREADY_EXISTS)
  \/ (a = GLOBAL_ALREADY_EXISTS /\ b = INVALID_SCRIPT_LOCATION).
Proof. exact (MessagesP.codes_distinct a b). Qed.
Print Assumptions C61_codes_distinct_partial.

Theorem C61_shared_code_refuted :
  INVALID_SCRIPT_LOCATION <> GLOBAL_ALREADY_EXISTS /\
  code_text INVALID_SCRIPT_LOCATION = code_text GLOBAL_ALREADY_EXISTS /\
  forall l, localize_error_code INVALID_SCRIPT_LOCATION l = localize_error_code GLOBAL_ALREADY_EXISTS l.
Proof. exact MessagesP.shared_code. Qed.
Print Assumptions C61_shared_code_refuted.

(** Every code has a message, whatever the tags, but for two (full claim: every code; refuted below). *)
Theorem C61_message_exists_partial c l :
  c <> UNTERMINATED_BACKSLASH_ARG -> c <> MODULE_ALREADY_EXISTS -> localize_error_code c l <> [].
Proof. exact (MessagesP.every_code_has_message c l). Qed.
Print Assumptions C61_message_exists_partial.

Theorem C61_message_missing_refuted l :
  localize_error_code UNTERMINATED_BACKSLASH_ARG l = [] /\ localize_error_code MODULE_ALREADY_EXISTS l = [].
Proof. exact (MessagesP.two_codes_without_message l). Qed.
Print Assumptions C61_message_missing_refuted.

(** An error as the code raises it has a message, and the message shows every value it was given. *)
Theorem C61_raised_errors_show_their_tags c l :
  In (c, map fst l) raised -> shows_tags (code_text c) l /\ localize_error_code c l <> [].
Proof. exact (MessagesP.raised_shows c l). Qed.
Print Assumptions C61_raised_errors_show_their_tags.

(** No place for a value is left open, but for a panic without a message (full claim: never; refuted below). *)
Theorem C61_nothing_left_open_partial c l :
  In (c, map fst l) raised -> (c, l) <> (PANIC, []) -> nothing_open (code_text c) l.
Proof. exact (MessagesP.raised_complete c l). Qed.
Print Assumptions C61_nothing_left_open_partial.

Theorem C61_panic_without_message_refuted :
  In (PANIC, []) raised /\ localize_error_code PANIC [] = chars "A panic has occurred. {$message}".
Proof. exact MessagesP.panic_without_message. Qed.
Print Assumptions C61_panic_without_message_refuted.

(** The notes. *)
Theorem C61_notes_show_their_tags id l :
  In (id, map fst l) noted -> shows_tags id l /\ nothing_open id l /\ localize_context_msg_id id l <> [].
Proof. exact (MessagesP.noted_shows id l). Qed.
Print Assumptions C61_notes_show_their_tags.

(** The message for a token the parser did not expect. *)
Example C61_sample :
  In (UNEXPECTED_TOKEN, ["expected"; "actual"]%string) raised /\
  localize_error_code UNEXPECTED_TOKEN [("expected", chars ";"); ("actual", chars "}")]%string
  = chars "Encountered unexpected token during parsing. Found: }, Expected: ;".
Proof.
  split; [|vm_compute; reflexivity].
  refine (nth_error_In raised 5 _). reflexivity.
Qed.
