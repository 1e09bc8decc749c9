(** The repository's test of conversions between versions (src/document.rs:1111-1197, [v1_v2_conversions]), run on the model. The parser of KDL v1 is not part of the model, so of the two conversions only the one from v2 to v1 can be run. *)
From Verif Require Import V1.

Definition test_v1 : str := lt_ "
// If you'd like to override the default keybindings completely, be sure to change ""keybinds"" to ""keybinds clear-defaults=true""
keybinds {
    normal {
        // uncomment this and adjust key if using copy_on_select=false
        // bind ""Alt c"" { Copy; }
    }
    locked {
        bind ""Ctrl g"" { SwitchToMode ""Normal""; }
    }
    resize {
        bind ""Ctrl n"" { SwitchToMode ""Normal""; }
        bind ""h"" ""Left"" { Resize ""Increase Left""; }
        bind ""j"" ""Down"" { Resize ""Increase Down""; }
        bind ""k"" ""Up"" { Resize ""Increase Up""; }
        bind ""l"" ""Right"" { Resize ""Increase Right""; }
        bind ""H"" { Resize ""Decrease Left""; }
        bind ""J"" { Resize ""Decrease Down""; }
        bind ""K"" { Resize ""Decrease Up""; }
        bind ""L"" { Resize ""Decrease Right""; }
        bind ""="" ""+"" { Resize ""Increase""; }
        bind ""-"" { Resize ""Decrease""; }
    }
}
// Plugin aliases - can be used to change the implementation of Zellij
// changing these requires a restart to take effect
plugins {
    tab-bar location=""zellij:tab-bar""
    status-bar location=""zellij:status-bar""
    welcome-screen location=""zellij:session-manager"" {
        welcome_screen true
    }
    filepicker location=""zellij:strider"" {
        cwd ""\/""
    }
}
mouse_mode false
mirror_session true
".
Definition test_v2 : str := lt_ "
// If you'd like to override the default keybindings completely, be sure to change ""keybinds"" to ""keybinds clear-defaults=true""
keybinds {
    normal {
        // uncomment this and adjust key if using copy_on_select=false
        // bind ""Alt c"" { Copy; }
    }
    locked {
        bind ""Ctrl g"" { SwitchToMode Normal; }
    }
    resize {
        bind ""Ctrl n"" { SwitchToMode Normal; }
        bind h Left { Resize ""Increase Left""; }
        bind j Down { Resize ""Increase Down""; }
        bind k Up { Resize ""Increase Up""; }
        bind l Right { Resize ""Increase Right""; }
        bind H { Resize ""Decrease Left""; }
        bind J { Resize ""Decrease Down""; }
        bind K { Resize ""Decrease Up""; }
        bind L { Resize ""Decrease Right""; }
        bind ""="" + { Resize Increase; }
        bind - { Resize Decrease; }
    }
}
// Plugin aliases - can be used to change the implementation of Zellij
// changing these requires a restart to take effect
plugins {
    tab-bar location=zellij:tab-bar
    status-bar location=zellij:status-bar
    welcome-screen location=zellij:session-manager {
        welcome_screen #true
    }
    filepicker location=zellij:strider {
        cwd ""/""
    }
}
mouse_mode #false
mirror_session #true
".
(** An identifier made from a string by kdl 4 has no representation. Only the functions used by this direction matter here. *)
Example v2_to_v1_test : v2_to_v1 test_k test_v2 = POk test_v1.
Proof. vm_compute. reflexivity. Qed.
Example detect_test : detect_v1 test_v1 = true /\ detect_v2 test_v2 = true.
Proof. vm_compute. auto. Qed.
