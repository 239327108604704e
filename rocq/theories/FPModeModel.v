(** Model of FileHandler::isReadOnly (FilePool/src/lib/FileHandler.cpp:33-35). *)
From Verif Require Import FilePoolModel.
Definition is_read_only (s : pool) (h : hid) : bool := readonly (hs s h).
