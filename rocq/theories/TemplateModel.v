(** The project templates of crates/analyzer/src/codegen/snippets.rs, verbatim. *)
From Verif Require Import Base.

(** snippets.rs L100-142 *)
Definition CONTRACT_PLAIN : str := lit "#![cfg_attr(not(feature = ""std""), no_std)]

#[ink::contract]
pub mod my_contract {
    #[ink(storage)]
    pub struct MyContract {}

    impl MyContract {
        #[ink(constructor)]
        pub fn new() -> Self {
            todo!()
        }

        #[ink(message)]
        pub fn my_message(&self) {
            todo!()
        }
    }

    #[cfg(test)]
    mod tests {
        use super::*;

        #[ink::test]
        fn it_works() {
            todo!()
        }
    }

    #[cfg(all(test, feature = ""e2e-tests""))]
    mod e2e_tests {
        use super::*;

        type E2EResult<T> = std::result::Result<T, Box<dyn std::error::Error>>;

        #[ink_e2e::test]
        async fn it_works(mut client: ink_e2e::Client<C, E>) -> E2EResult<()> {
            todo!();

            Ok(())
        }
    }
}".
(** snippets.rs L143-187 *)
Definition CONTRACT_SNIPPET : str := lit "#![cfg_attr(not(feature = ""std""), no_std)]

#[ink::contract]
pub mod ${1:my_contract} {
    #[ink(storage)]
    pub struct ${2:MyContract} {
        $3
    }

    impl ${2:MyContract} {
        #[ink(constructor)]
        pub fn ${4:new}() -> ${5:Self} {
            ${6:todo!()}
        }

        #[ink(message)]
        pub fn ${7:my_message}(&${8:self}) {
            ${9:todo!()}
        }
    }

    #[cfg(test)]
    mod tests {
        use super::*;

        #[ink::test]
        fn ${10:it_works}() {
            ${11:todo!()}
        }
    }

    #[cfg(all(test, feature = ""e2e-tests""))]
    mod e2e_tests {
        use super::*;

        type E2EResult<T> = std::result::Result<T, Box<dyn std::error::Error>>;

        #[ink_e2e::test]
        async fn ${12:it_works}(${13:mut client: ink_e2e::Client<C, E>}) -> ${14:E2EResult<()>} {
            ${15:todo!();}

            Ok(())
        }
    }
}".
(** snippets.rs L189-231 *)
Definition CONTRACT_PLAIN_V5 : str := lit "#![cfg_attr(not(feature = ""std""), no_std)]

#[ink::contract]
pub mod my_contract {
    #[ink(storage)]
    pub struct MyContract {}

    impl MyContract {
        #[ink(constructor)]
        pub fn new() -> Self {
            todo!()
        }

        #[ink(message)]
        pub fn my_message(&self) {
            todo!()
        }
    }

    #[cfg(test)]
    mod tests {
        use super::*;

        #[ink::test]
        fn it_works() {
            todo!()
        }
    }

    #[cfg(all(test, feature = ""e2e-tests""))]
    mod e2e_tests {
        use super::*;

        type E2EResult<T> = std::result::Result<T, Box<dyn std::error::Error>>;

        #[ink_e2e::test]
        async fn it_works<Client: E2EBackend>(mut client: Client) -> E2EResult<()> {
            todo!();

            Ok(())
        }
    }
}".
(** snippets.rs L232-276 *)
Definition CONTRACT_SNIPPET_V5 : str := lit "#![cfg_attr(not(feature = ""std""), no_std)]

#[ink::contract]
pub mod ${1:my_contract} {
    #[ink(storage)]
    pub struct ${2:MyContract} {
        $3
    }

    impl ${2:MyContract} {
        #[ink(constructor)]
        pub fn ${4:new}() -> ${5:Self} {
            ${6:todo!()}
        }

        #[ink(message)]
        pub fn ${7:my_message}(&${8:self}) {
            ${9:todo!()}
        }
    }

    #[cfg(test)]
    mod tests {
        use super::*;

        #[ink::test]
        fn ${10:it_works}() {
            ${11:todo!()}
        }
    }

    #[cfg(all(test, feature = ""e2e-tests""))]
    mod e2e_tests {
        use super::*;

        type E2EResult<T> = std::result::Result<T, Box<dyn std::error::Error>>;

        #[ink_e2e::test]
        async fn ${12:it_works}<${13:Client: E2EBackend}>(${14:mut client: Client}) -> ${15:E2EResult<()>} {
            ${16:todo!();}

            Ok(())
        }
    }
}".
(** snippets.rs L497-523 *)
Definition CARGO_TOML_PLAIN : str := lit "[package]
name = ""my_contract""
version = ""0.1.0""
authors = [""[your_name] <[your_email]>""]
edition = ""2021""

[dependencies]
ink = { version = ""4.3.0"", default-features = false }

scale = { package = ""parity-scale-codec"", version = ""3"", default-features = false, features = [""derive""] }
scale-info = { version = ""2.6"", default-features = false, features = [""derive""], optional = true }

[dev-dependencies]
ink_e2e = ""4.3.0""

[lib]
path = ""lib.rs""

[features]
default = [""std""]
std = [
    ""ink/std"",
    ""scale/std"",
    ""scale-info/std"",
]
ink-as-dependency = []
e2e-tests = []".
(** snippets.rs L524-550 *)
Definition CARGO_TOML_SNIPPET : str := lit "[package]
name = ""${1:my_contract}""
version = ""0.1.0""
authors = [""${2:[your_name]} <${3:[your_email]}>""]
edition = ""2021""

[dependencies]
ink = { version = ""4.3.0"", default-features = false }

scale = { package = ""parity-scale-codec"", version = ""3"", default-features = false, features = [""derive""] }
scale-info = { version = ""2.6"", default-features = false, features = [""derive""], optional = true }

[dev-dependencies]
ink_e2e = ""4.3.0""

[lib]
path = ""lib.rs""

[features]
default = [""std""]
std = [
    ""ink/std"",
    ""scale/std"",
    ""scale-info/std"",
]
ink-as-dependency = []
e2e-tests = []".
(** snippets.rs L552-573 *)
Definition CARGO_TOML_PLAIN_V5 : str := lit "[package]
name = ""my_contract""
version = ""0.1.0""
authors = [""[your_name] <[your_email]>""]
edition = ""2021""

[dependencies]
ink = { version = ""5.0.0"", default-features = false }

[dev-dependencies]
ink_e2e = { version = ""5.0.0"" }

[lib]
path = ""lib.rs""

[features]
default = [""std""]
std = [
    ""ink/std"",
]
ink-as-dependency = []
e2e-tests = []".
(** snippets.rs L574-595 *)
Definition CARGO_TOML_SNIPPET_V5 : str := lit "[package]
name = ""${1:my_contract}""
version = ""0.1.0""
authors = [""${2:[your_name]} <${3:[your_email]}>""]
edition = ""2021""

[dependencies]
ink = { version = ""5.0.0"", default-features = false }

[dev-dependencies]
ink_e2e = { version = ""5.0.0"" }

[lib]
path = ""lib.rs""

[features]
default = [""std""]
std = [
    ""ink/std"",
]
ink-as-dependency = []
e2e-tests = []".
