(** The texts of the project's own tests read with the model of the configuration file. *)
From Verif Require Import GoBase Config NetUrl Dsn Toml SpecToml.

(** pkg/cli/testdata/example.toml *)
Definition example_toml : bytes :=
  str "listen = ""0.0.0.0:4242""" ++ [x0a] ++ str "database-url = ""postgres://localhost/hired_dev""" ++ [x0a].
(** read_server_config_test.go:22-28 "parses toml and returns config" *)
Example test_parses_toml : readServerConfig (fun l => l) (Ok example_toml) = Some (Ok (Config (str "0.0.0.0:4242") (str "postgres://localhost/hired_dev"))).
Proof. vm_compute. reflexivity. Qed.
(** read_server_config_test.go:35-40 "returns error if file doesn't exist" *)
Example test_no_such_file : forall e, readServerConfig (fun l => l) (Err e) = Some (Err e).
Proof. reflexivity. Qed.
(** watch_server_config_test.go:24,39: the file before and after it is written over *)
Example test_watched : map (fun s => readServerConfig (fun l => l) (Ok (s ++ [x0a]))) [str "listen = '0.0.0.0:4242'"; str "listen = '0.0.0.0:31337'"] =
  [Some (Ok (Config (str "0.0.0.0:4242") [])); Some (Ok (Config (str "0.0.0.0:31337") []))].
Proof. vm_compute. reflexivity. Qed.
