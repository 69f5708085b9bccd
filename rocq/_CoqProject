-Q theories Verif
theories/Base.v
theories/Facts.v
theories/Cbor/Model.v
theories/Cbor/Spec.v
theories/Cbor/Proofs.v
theories/Cbor/Proofs2.v
theories/Cbor/Proofs3.v
theories/Cbor/Proofs4.v
theories/Cbor/Props.v
theories/Hid/Model.v
theories/Hid/Spec.v
theories/Hid/Proofs.v
theories/Hid/Proofs2.v
theories/Hid/Proofs3.v
theories/Hid/Props.v
theories/U2f/Model.v
theories/U2f/Spec.v
theories/U2f/Proofs.v
theories/U2f/Props.v
theories/Clock/Model.v
theories/Clock/Spec.v
theories/Clock/Proofs.v
theories/Clock/Props.v
theories/Kv/Model.v
theories/Kv/Spec.v
theories/Kv/Proofs.v
theories/Kv/Props.v
theories/Ctap/Crypto.v
theories/Ctap/Types.v
theories/Ctap/Machine.v
theories/Ctap/Commands.v
theories/Ctap/Parse.v
theories/Ctap/System.v
theories/Ctap/Logic.v
theories/Ctap/History.v
theories/Ctap/PinSpec.v
theories/Ctap/Pin.v
theories/Ctap/Toy.v
theories/Ctap/Track.v
theories/Ctap/PinChange.v
theories/Ctap/MinPin.v
theories/Ctap/Events.v
theories/Ctap/PropsPin.v
theories/Ctap/TokenSpec.v
theories/Ctap/Token.v
theories/Ctap/Success.v
theories/Ctap/Auth.v
theories/Ctap/Gate.v
theories/Ctap/Answers.v
theories/Ctap/TokenUse.v
theories/Ctap/ToyMore.v
theories/Ctap/PropsToken.v
theories/Ctap/Enum.v
theories/Ctap/NoPanic.v
theories/Ctap/Creds.v
theories/Ctap/PropsEnum.v
theories/Ctap/PropsCreds.v
theories/Ctap/Enumerate.v
theories/Ctap/PropsEnumerate.v
theories/Ctap/Reset.v
theories/Ctap/PropsReset.v
theories/Ctap/Seal.v
theories/Ctap/Keys.v
theories/Ctap/Protect.v
theories/Ctap/Stored.v
theories/Ctap/Sealed.v
theories/Ctap/PropsSeal.v
theories/Ctap/PropsProtect.v
theories/Ctap/Counter.v
theories/Ctap/PropsCounter.v
theories/Ctap/Blob.v
theories/Ctap/PropsBlob.v
theories/Ctap/Layout.v
theories/Ctap/PropsLayout.v
theories/Upgrade/Model.v
theories/Upgrade/Spec.v
theories/Upgrade/Proofs.v
theories/Upgrade/Props.v
theories/Hash/Model.v
theories/Hash/Spec.v
theories/Hash/Proofs.v
theories/Hash/Props.v
theories/Int/Model.v
theories/Int/Spec.v
theories/Int/Proofs.v
theories/Int/Proofs2.v
theories/Int/Props.v
theories/Store/Format.v
theories/Store/Bits.v
theories/Store/Words.v
theories/Store/Geom.v
theories/Store/PropsFormat.v
theories/Store/Model.v
theories/Store/Wp.v
theories/Store/Entries.v
theories/Store/Layout.v
theories/Store/Scan.v
theories/Store/Steps.v
theories/Store/Ents.v
theories/Store/Window.v
theories/Store/Shapes.v
theories/Store/Compact.v
theories/Store/Room.v
theories/Store/Finish.v
theories/Store/Oper.v
theories/Store/Redo.v
theories/Store/Undo.v
theories/Store/Recover.v
theories/Store/System.v
theories/Store/StoreSpec.v
theories/Store/History.v
theories/Store/PropsStore.v
theories/Linear/Model.v
theories/Linear/Props.v
theories/Ctap/Hmac.v
theories/Ctap/PropsHmac.v
theories/Aes/Model.v
theories/Aes/Spec.v
theories/Aes/Proofs.v
theories/Aes/Cbc.v
theories/Aes/Props.v
theories/Ctap/PropsSoftware.v
theories/Prime/Fermat.v
theories/Prime/Pocklington.v
theories/Prime/Curve.v
theories/Prime/Inverse.v
theories/Field/Model.v
theories/Field/Spec.v
theories/Field/Proofs.v
theories/Field/Mul.v
theories/Field/Eliminate.v
theories/Field/Product.v
theories/Field/Convert.v
theories/Field/Props.v
theories/Prime/Props.v
theories/Curve/Group.v
theories/Curve/Formulas.v
theories/Curve/Spec.v
theories/Curve/Fast.v
theories/Curve/Fp.v
theories/Curve/Link.v
theories/Point/Table.v
theories/Point/Hints.v
theories/Point/Chain.v
theories/Point/Model.v
theories/Point/Proofs.v
theories/Point/Mult.v
theories/Point/Spec.v
theories/Point/Coords.v
theories/Point/Zero.v
theories/Point/Order.v
theories/Point/Props.v
theories/Sign/Model.v
theories/Sign/Spec.v
theories/Sign/Proofs.v
theories/Sign/Rfc.v
theories/Sign/Refuted.v
theories/Sign/Props.v
theories/Ctap/PropsEcdsa.v
theories/Device/Wait.v
theories/Device/WaitSpec.v
theories/Device/PropsWait.v
theories/Device/Loop.v
theories/Device/Spec.v
theories/Device/Proofs.v
theories/Device/Exchange.v
theories/Device/Props.v
theories/Device/Vendor.v
theories/Device/VendorSpec.v
theories/Device/VendorProofs.v
theories/Device/PropsVendor.v
theories/Flash/Model.v
theories/Flash/Spec.v
theories/Flash/Proofs.v
theories/Flash/Props.v
theories/Flash/Guard.v
theories/Flash/PropsGuard.v
theories/Usb/Model.v
theories/Usb/Spec.v
theories/Usb/Proofs.v
theories/Usb/Transmit.v
theories/Usb/Own.v
theories/Usb/Props.v
theories/Usb/Fair.v
theories/Boot/Model.v
theories/Boot/Proofs.v
theories/Boot/Props.v
theories/Touch/Model.v
theories/Touch/Spec.v
theories/Touch/Proofs.v
theories/Touch/Ends.v
theories/Touch/Props.v
theories/Store/PropsError.v
theories/Touch/PropsPresence.v
theories/Rng/Model.v
theories/Rng/Spec.v
theories/Rng/Proofs.v
theories/Rng/Props.v
theories/Store/Endure.v
theories/Store/PropsEndure.v
theories/Ctap/Attest.v
theories/Ctap/PropsAttest.v
theories/Ctap/Owner.v
theories/Ctap/PropsOwner.v
theories/Ctap/Works.v
theories/Ctap/PropsWorks.v
theories/Ctap/WorksU2f.v
theories/Ctap/PropsWorksU2f.v
theories/Ctap/Resident.v
theories/Ctap/PropsResident.v
theories/Ctap/ResetPossible.v
theories/Ctap/PropsResetPossible.v
theories/Ctap/DeleteWorks.v
theories/Ctap/PropsDelete.v
theories/Ctap/PropsInfo.v
theories/Ctap/UpdateWorks.v
theories/Ctap/PropsUpdate.v
theories/Ctap/PropsMetadata.v
theories/Ctap/PropsToggle.v
theories/Ctap/PropsMinPin.v
