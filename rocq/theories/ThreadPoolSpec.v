(** Vocabulary of the thread pool statements: sequences of tasks read off the history. *)
From Coq Require Import List Arith.
From Verif Require Import ThreadPoolModel.
Import ListNotations.

Definition submitted (h : list event) : list task := flat_map (fun e => match e with Submitted t => [t] | _ => [] end) h.
Definition assigned (h : list event) : list task := flat_map (fun e => match e with Assigned t _ => [t] | _ => [] end) h.
Definition started (h : list event) : list task := flat_map (fun e => match e with Started t _ => [t] | _ => [] end) h.
Definition finished (h : list event) : list task := flat_map (fun e => match e with Finished t _ => [t] | _ => [] end) h.
Definition failed (h : list event) : list task := flat_map (fun e => match e with Failed t _ => [t] | _ => [] end) h.
(** The tasks that are over, one way or the other. *)
Definition ended (h : list event) : list task := flat_map (fun e => match e with Finished t _ | Failed t _ => [t] | _ => [] end) h.
(** The workers that took a task, one entry per task taken. *)
Definition takers (h : list event) : list nat := flat_map (fun e => match e with Assigned _ w => [w] | _ => [] end) h.

Definition prefix {A} (a b : list A) : Prop := exists r, b = a ++ r.
