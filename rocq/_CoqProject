-Q theories Verif
theories/Base.v
theories/M_Aggregate.v
theories/M_Aggregate2.v
theories/M_Alias.v
theories/M_BVH.v
theories/M_Camera.v
theories/M_Film.v
theories/M_FilmThreads.v
theories/M_Float.v
theories/M_Float2.v
theories/M_Float3.v
theories/M_Float4.v
theories/M_Float5.v
theories/M_Float6.v
theories/M_Geometry.v
theories/M_InfLight.v
theories/M_Integrator.v
theories/M_Interface.v
theories/M_Light.v
theories/M_Loop.v
theories/M_LoopObj.v
theories/M_Material.v
theories/M_MipMap.v
theories/M_Misc.v
theories/M_MonteCarlo.v
theories/M_Primitive.v
theories/M_Python.v
theories/M_Reflection.v
theories/M_Render.v
theories/M_Renderer.v
theories/M_Rho.v
theories/M_Sampler.v
theories/M_Scene.v
theories/M_Shapes.v
theories/M_Small.v
theories/M_Spectrum.v
theories/M_Spectrum2.v
theories/M_Texture.v
theories/M_Transform.v
theories/M_Typed.v
theories/M_Utility.v
theories/M_Volume.v
theories/M_VoxelThreads.v
theories/M_World.v
theories/M_World2.v
theories/M_World3.v
theories/P_Aggregate.v
theories/P_Aggregate2.v
theories/P_Agree.v
theories/P_Alias.v
theories/P_Animated.v
theories/P_Area.v
theories/P_BVH.v
theories/P_BVHSplit.v
theories/P_BVHTrav.v
theories/P_BVHWit.v
theories/P_Brighter.v
theories/P_Camera.v
theories/P_Cone.v
theories/P_Deeper.v
theories/P_Distribution.v
theories/P_Distribution2.v
theories/P_Film.v
theories/P_Film2.v
theories/P_Film3.v
theories/P_FilmThreads.v
theories/P_FilmThreads2.v
theories/P_Float.v
theories/P_Fresnel.v
theories/P_Geometry.v
theories/P_Grid.v
theories/P_GridWalk.v
theories/P_GridWalk2.v
theories/P_Integrator.v
theories/P_Integrator2.v
theories/P_Integrator3.v
theories/P_Integrator4.v
theories/P_Integrator5.v
theories/P_Interface.v
theories/P_Interface2.v
theories/P_Inverse.v
theories/P_Light.v
theories/P_LobeSampling.v
theories/P_Loop1.v
theories/P_Loop10.v
theories/P_Loop11.v
theories/P_Loop12.v
theories/P_Loop2.v
theories/P_Loop3.v
theories/P_Loop4.v
theories/P_Loop5.v
theories/P_Loop6.v
theories/P_Loop7.v
theories/P_Loop8.v
theories/P_Loop9.v
theories/P_Material.v
theories/P_Material2.v
theories/P_Material3.v
theories/P_Material4.v
theories/P_Material5.v
theories/P_Material6.v
theories/P_Mesh.v
theories/P_Microfacet.v
theories/P_MipMap1.v
theories/P_MipMap2.v
theories/P_MipMap3.v
theories/P_MipMap4.v
theories/P_MipMap5.v
theories/P_MipMap6.v
theories/P_MonteCarlo.v
theories/P_Motion.v
theories/P_Motion2.v
theories/P_Normals.v
theories/P_Order.v
theories/P_Orient.v
theories/P_Orient2.v
theories/P_Picture.v
theories/P_Quadrics.v
theories/P_Reciprocity.v
theories/P_Refine.v
theories/P_Reflection.v
theories/P_Reflection2.v
theories/P_Reflection3.v
theories/P_Render.v
theories/P_Renderer.v
theories/P_Requests.v
theories/P_Rho.v
theories/P_Sampler.v
theories/P_Scene.v
theories/P_Scene2.v
theories/P_SceneBound.v
theories/P_SceneOf.v
theories/P_ShapesMore.v
theories/P_ShapesMore2.v
theories/P_Spectrum.v
theories/P_Spectrum2.v
theories/P_Spectrum3.v
theories/P_Spectrum4.v
theories/P_Superpose.v
theories/P_Surface.v
theories/P_Tangent.v
theories/P_Texture1.v
theories/P_Texture2.v
theories/P_Tiles.v
theories/P_Transform.v
theories/P_Transform2.v
theories/P_Triangle.v
theories/P_Utility.v
theories/P_Volume1.v
theories/P_Volume2.v
theories/P_Volume3.v
theories/P_Volume4.v
theories/P_Volume5.v
theories/P_VoxelThreads.v
theories/P_World.v
theories/P_World2.v
theories/Props_Aggregate.v
theories/Props_Aggregate2.v
theories/Props_Agree.v
theories/Props_Alias.v
theories/Props_Amplify.v
theories/Props_BVH.v
theories/Props_BVHMethod.v
theories/Props_BVHSplit.v
theories/Props_Bounded.v
theories/Props_Brighter.v
theories/Props_Camera.v
theories/Props_CylSample.v
theories/Props_Deeper.v
theories/Props_DeeperPicture.v
theories/Props_Film.v
theories/Props_Float.v
theories/Props_Float10.v
theories/Props_Float2.v
theories/Props_Float3.v
theories/Props_Float4.v
theories/Props_Float5.v
theories/Props_Float6.v
theories/Props_Float7.v
theories/Props_Float8.v
theories/Props_Float9.v
theories/Props_Geometry.v
theories/Props_Glass.v
theories/Props_InfLight.v
theories/Props_Integrator.v
theories/Props_Integrator2.v
theories/Props_Interface.v
theories/Props_Light.v
theories/Props_Loop.v
theories/Props_LoopObj.v
theories/Props_Mapping.v
theories/Props_Material.v
theories/Props_Microfacet.v
theories/Props_Mirror.v
theories/Props_Misc.v
theories/Props_MonteCarlo.v
theories/Props_MoreLightPicture.v
theories/Props_Motion.v
theories/Props_Order.v
theories/Props_Orient.v
theories/Props_PathMean.v
theories/Props_PathPicture.v
theories/Props_Picture.v
theories/Props_Picture2.v
theories/Props_PictureRange.v
theories/Props_Reflection.v
theories/Props_Render.v
theories/Props_SameDirect.v
theories/Props_SamePicture.v
theories/Props_Sampler.v
theories/Props_ScaledPicture.v
theories/Props_Scene.v
theories/Props_SceneBound.v
theories/Props_Shapes.v
theories/Props_Shiny.v
theories/Props_Small.v
theories/Props_Spectrum.v
theories/Props_Spectrum2.v
theories/Props_SumPicture.v
theories/Props_Superpose.v
theories/Props_Surface.v
theories/Props_Tangent.v
theories/Props_Texture.v
theories/Props_Texture2.v
theories/Props_Tight.v
theories/Props_Tight2.v
theories/Props_Tight3.v
theories/Props_Tight4.v
theories/Props_Tight5.v
theories/Props_Tight6.v
theories/Props_Tight7.v
theories/Props_Tight8.v
theories/Props_Transform.v
theories/Props_Typed.v
theories/Props_Volume.v
theories/Props_World.v
theories/Props_WorldEnds.v
theories/S_Aggregate.v
theories/S_Area.v
theories/S_BVH.v
theories/S_Bounded.v
theories/S_Brighter.v
theories/S_Camera.v
theories/S_Film.v
theories/S_FilmThreads.v
theories/S_Geometry.v
theories/S_Integrator.v
theories/S_Integrator2.v
theories/S_Interface.v
theories/S_Light.v
theories/S_Loop.v
theories/S_Material.v
theories/S_Microfacet.v
theories/S_Mirror.v
theories/S_MonteCarlo.v
theories/S_Motion.v
theories/S_Motion2.v
theories/S_Order.v
theories/S_Picture.v
theories/S_Reflection.v
theories/S_Rho.v
theories/S_SamePicture.v
theories/S_Sampler.v
theories/S_Scene.v
theories/S_Shapes.v
theories/S_Spectrum.v
theories/S_Superpose.v
theories/S_Texture.v
theories/S_Transform.v
theories/S_Volume.v
theories/S_World.v
