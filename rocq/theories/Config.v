(** Model of pkg/server/config.go. *)
From Verif Require Export GoBase.

(** config.go:5-11 *)
Record config := Config { Listen : bytes; DatabaseURL : bytes }.
